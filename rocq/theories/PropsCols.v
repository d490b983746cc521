(** C85: the order of the columns and (for the asymptotic significances) the names of the categories do not matter. *)
From Coq Require Import String ZArith List Bool Reals Lra Lia Sorting.Permutation.
Import ListNotations.
From Verif Require Import F64 Base Cells BinModel SpecBin BinProofs BinDataProofs HistModel SpecHist HistProofs RSum StatsModel SpecStats StatsProofs StatsProofs2 BivModel Num PhikModel SpecPhik PhikProofs PhikProofs OverviewProofs PairMatProofs PhikMatProofs FrameProofs PhikInvProofs ArrayModel SparkModel SpecSpark SparkProofs RcontModel SimModel SigModel SigProofs PropsStats PropsGlobal PropsSig.
Open Scope list_scope.

(** f' holds the columns of f in another order *)
Definition same_columns (f f' : frame) : Prop := NoDup (keys f) /\ Permutation f f'.
(** every entry of the bins argument is a number or a list of edges *)
Definition bins_supported (bins : bins_arg) : Prop := match bins with BOne b => b <> BOther | BDict d => forall c, assoc c d <> Some BOther end.
(** two matrices with the same entries, whatever the order of rows and columns *)
Definition same_matrix (t t' : ntable) : Prop := Permutation (t_index t) (t_index t') /\ Permutation (t_columns t) (t_columns t') /\ forall a b, tval t a b = tval t' a b.

Lemma keys_perm : forall B (f f' : list (string * B)), Permutation f f' -> Permutation (keys f) (keys f').
Proof. intros B f f' P. apply Permutation_map. exact P. Qed.
Lemma assoc_perm : forall B (f f' : list (string * B)) c, NoDup (keys f) -> Permutation f f' -> assoc c f = assoc c f'.
Proof.
  intros B f f' c N P. assert (N' : NoDup (keys f')) by (eapply Permutation_NoDup; [apply keys_perm; exact P|exact N]).
  destruct (assoc c f) as [x|] eqn:A.
  - symmetry. apply assoc_NoDup; [exact N'|]. eapply Permutation_in; [exact P|]. apply assoc_In. exact A.
  - destruct (assoc c f') as [x|] eqn:A'; [|reflexivity]. apply assoc_In in A'. apply (Permutation_in _ (Permutation_sym P)) in A'. apply assoc_NoDup in A'; [congruence|exact N].
Qed.
Lemma perm_assoc : forall B (f f' : list (string * B)), NoDup (keys f) -> NoDup (keys f') -> (forall c, assoc c f = assoc c f') -> Permutation f f'.
Proof.
  intros B f f' N N' H. apply NoDup_Permutation; [apply nodup_keys; exact N|apply nodup_keys; exact N'|]. intros [c x]. split; intros I; apply assoc_NoDup in I; try assumption; apply assoc_In; [rewrite <- H|rewrite H]; exact I.
Qed.
Lemma filter_perm : forall A (p : A -> bool) l l', Permutation l l' -> Permutation (filter p l) (filter p l').
Proof.
  intros A p l l' P. induction P as [|x l l' P IH|x y l|l l' l'' P IH P' IH']; cbn [filter]; [constructor| | |eapply Permutation_trans; eassumption].
  - destruct (p x); [constructor|]; exact IH.
  - destruct (p x), (p y); try apply Permutation_refl. apply perm_swap.
Qed.

Section Prepare.
  Variable npq : list f64 -> Z -> list f64.
  Lemma bin_data_cols : forall f f' cols cols' bins q b dict, NoDup (keys f) -> Permutation f f' -> (forall c, In c cols <-> In c cols') -> bins_supported bins ->
    bin_data npq f cols bins q = Ok (b, dict) -> exists b' dict', bin_data npq f' cols' bins q = Ok (b', dict') /\ Permutation b b'.
  Proof.
    intros f f' cols cols' bins q b dict N P C S H. assert (SP : forall c, In c cols -> supported (spec_of bins c)).
    { intros c Hc. destruct bins as [[k|e|]|d]; cbn [spec_of supported bins_supported] in *; try exact Logic.I; [congruence|]. specialize (S c). destruct (assoc c d) as [[k|e|]|] eqn:A; try exact Logic.I; [congruence|].
      exfalso. rewrite (bin_data_missing_key npq f cols d q c Hc A) in H. discriminate. }
    destruct (bin_data_spec npq _ _ _ _ _ _ H) as (K & U & B).
    destruct (bin_data_total npq f' cols' bins q) as (b' & dict' & H').
    { intros c Hc. apply C in Hc. destruct (B c Hc (SP c Hc)) as (column & arr & edges & A1 & A2 & A3 & _). exists column, arr, edges. rewrite <- (assoc_perm _ f f' c N P). auto. }
    exists b', dict'. split; [exact H'|]. destruct (bin_data_spec npq _ _ _ _ _ _ H') as (K' & U' & B').
    assert (N' : NoDup (keys f')) by (eapply Permutation_NoDup; [apply keys_perm; exact P|exact N]).
    apply perm_assoc; [rewrite K; exact N|rewrite K'; exact N'|]. intros c. destruct (in_dec string_dec c cols) as [I|I].
    - destruct (B c I (SP c I)) as (column & arr & edges & A1 & A2 & A3 & A4 & _). destruct (B' c (proj1 (C c) I) (SP c I)) as (column' & arr' & edges' & A1' & A2' & A3' & A4' & _).
      rewrite A4, A4'. rewrite <- (assoc_perm _ f f' c N P), A1 in A1'. injection A1' as <-. rewrite A2 in A2'. injection A2' as <-. unfold asks_for in A3, A3'. destruct (spec_of bins c) as [[k|e|]|]; try contradiction; [rewrite A3 in A3'; injection A3' as <-|subst]; reflexivity.
    - rewrite U by exact I. rewrite U' by (intros X; apply I, C, X). apply assoc_perm; assumption.
  Qed.
  Lemma prepare_cols : forall df df' icol bins q d b dict, same_columns df df' -> bins_supported bins ->
    let F g := (let dq := dq_check_nunique_values g (match icol with Some x => x | None => guess_interval_cols g end) d in bin_data npq (fst dq) (snd dq) bins q) in
    F df = Ok (b, dict) -> exists b' dict', F df' = Ok (b', dict') /\ Permutation b b' /\ NoDup (keys b).
  Proof.
    intros df df' icol bins q d b dict (N & P) S F H. unfold F in *. cbv zeta in *. assert (N' : NoDup (keys df')) by (eapply Permutation_NoDup; [apply keys_perm; exact P|exact N]).
    set (ic := match icol with Some x => x | None => guess_interval_cols df end) in *. set (ic' := match icol with Some x => x | None => guess_interval_cols df' end) in *.
    assert (IC : forall c, In c ic <-> In c ic').
    { intros c. unfold ic, ic'. destruct icol; [tauto|]. unfold guess_interval_cols. assert (Q : Permutation (map fst (filter (fun p => c_num (snd p)) df)) (map fst (filter (fun p => c_num (snd p)) df'))) by (apply Permutation_map, filter_perm; exact P). split; apply Permutation_in; [exact Q|apply Permutation_sym; exact Q]. }
    destruct (dq_nunique_spec df ic d N) as [E1 E2]. destruct (dq_nunique_spec df' ic' d N') as [E1' E2']. rewrite E1, E2 in H. rewrite E1', E2'.
    assert (MI : forall c, mem c ic' = mem c ic) by (intros c; apply eq_true_iff_eq; rewrite !mem_In; symmetry; apply IC).
    rewrite !(filter_ext (fun p : string * col => Nat.leb 2 (nunique (snd p)) || (Nat.eqb (nunique (snd p)) 1 && negb d && negb (mem (fst p) ic'))) (fun p => Nat.leb 2 (nunique (snd p)) || (Nat.eqb (nunique (snd p)) 1 && negb d && negb (mem (fst p) ic)))) by (intros p; rewrite MI; reflexivity).
    set (sv := fun p : string * col => _) in *. pose proof (filter_perm _ sv _ _ P) as PK.
    destruct (bin_data_cols (filter sv df) (filter sv df') (filter (fun c => mem c (keys (filter sv df))) ic) (filter (fun c => mem c (keys (filter sv df'))) ic') bins q b dict) as (b' & dict' & B & PB); try assumption; [apply nodup_keys_filter; exact N| |].
    - intros c. rewrite !filter_In, !mem_In, IC. assert (X : In c (keys (filter sv df)) <-> In c (keys (filter sv df'))) by (split; apply Permutation_in; [|apply Permutation_sym]; apply keys_perm; exact PK). tauto.
    - exists b', dict'. split; [exact B|]. split; [exact PB|]. destruct (bin_data_spec npq _ _ _ _ _ _ H) as (K & _). rewrite K. apply nodup_keys_filter. exact N.
  Qed.
End Prepare.

(** a symmetric table of pair values *)
Lemma assembled_perm : forall C (pv : string * C -> string * C -> res num) f f' vals, (forall p q, pv p q = pv q p) -> NoDup (keys f) -> Permutation f f' ->
  mapM (pair_row C pv) (combos f) = Ok vals -> exists vals', mapM (pair_row C pv) (combos f') = Ok vals' /\ same_matrix (reindex (overview vals) (keys f)) (reindex (overview vals') (keys f')).
Proof.
  intros C pv f f' vals SY N P E. assert (N' : NoDup (keys f')) by (eapply Permutation_NoDup; [apply keys_perm; exact P|exact N]).
  pose proof (assembled C pv f N vals E) as AS. destruct (mapM (pair_row C pv) (combos f')) as [vals'|e] eqn:E'.
  - exists vals'. split; [reflexivity|]. pose proof (assembled C pv f' N' vals' E') as AS'. split; [cbn [reindex t_index]; apply keys_perm; exact P|]. split; [cbn [reindex t_columns]; apply keys_perm; exact P|]. intros a b.
    assert (OUT : forall v (k : list string), ~ In a k \/ ~ In b k -> tval (reindex (overview v) k) a b = NaN). { intros v k H. unfold reindex. rewrite tval_grid. destruct (in_dec string_dec a k), (in_dec string_dec b k); try reflexivity. tauto. }
    assert (KI : forall c, In c (keys f) <-> In c (keys f')) by (intros c; split; apply Permutation_in; [|apply Permutation_sym]; apply keys_perm; exact P).
    destruct (in_dec string_dec a (keys f)) as [A|A]; [|rewrite !OUT by (rewrite <- ?KI; tauto); reflexivity]. destruct (in_dec string_dec b (keys f)) as [B|B]; [|rewrite !OUT by (rewrite <- ?KI; tauto); reflexivity].
    unfold keys in A, B. apply in_map_iff in A, B. destruct A as (p & <- & Hp), B as (q & <- & Hq).
    assert (V1 : Ok (tval (reindex (overview vals) (keys f)) (fst p) (fst q)) = pv p q). { destruct (combos_total _ f p q Hp Hq) as [H|H]; destruct (AS _ _ H) as (v & V & T1 & T2); [rewrite V, T1|rewrite SY, V, T2]; reflexivity. }
    assert (V2 : Ok (tval (reindex (overview vals') (keys f')) (fst p) (fst q)) = pv p q). { apply (Permutation_in _ P) in Hp, Hq. destruct (combos_total _ f' p q Hp Hq) as [H|H]; destruct (AS' _ _ H) as (v & V & T1 & T2); [rewrite V, T1|rewrite SY, V, T2]; reflexivity. }
    congruence.
  - exfalso. apply mapM_raise in E'. destruct E' as ([p q] & H & X). unfold pair_row in X. cbn [fst snd] in X. apply combos_In in H. destruct H as [Hp Hq]. apply (Permutation_in _ (Permutation_sym P)) in Hp, Hq.
    destruct (combos_total _ f p q Hp Hq) as [H|H]; destruct (AS _ _ H) as (v & V & _); [|rewrite SY in V]; rewrite V in X; discriminate.
Qed.
Lemma clean_perm : forall d u o f f', Permutation f f' -> Permutation (clean d u o f) (clean d u o f').
Proof. intros d u o f f' P. unfold clean. apply Permutation_map. exact P. Qed.

Lemma rebinned_cols : forall L noise d u o f f' t, lib_ok L -> NoDup (keys f) -> Permutation f f' -> fst (phik_from_rebinned_df L f noise d u o) = Ok t ->
  exists t', fst (phik_from_rebinned_df L f' noise d u o) = Ok t' /\ same_matrix t t'.
Proof.
  intros L noise d u o f f' t LO N P H. rewrite rebinned_unfold2 in *. destruct (mapM _ _) as [vals|] eqn:E; [|discriminate]. cbn [rmap] in H. injection H as <-.
  destruct (assembled_perm _ (pairval L noise) (clean d u o f) (clean d u o f') vals) as (vals' & E' & SM); [intros; apply pairval_sym; exact LO|rewrite keys_clean; exact N|apply clean_perm; exact P|exact E|].
  rewrite E'. cbn [rmap]. eexists. split; [reflexivity|]. rewrite !keys_clean in SM. exact SM.
Qed.
(** the phik matrix *)
Theorem C85_phik_matrix : forall npq L df df' ic bins q noise d u o t, lib_ok L -> same_columns df df' -> bins_supported bins ->
  phik_matrix npq L df ic bins q noise d u o = Ok t -> exists t', phik_matrix npq L df' ic bins q noise d u o = Ok t' /\ same_matrix t t'.
Proof.
  intros npq L df df' ic bins q noise d u o t LO SC S H. unfold phik_matrix in *. assert (PR := prepare_cols npq df df' ic bins q d). cbv beta zeta in PR.
  destruct (dq_check_nunique_values df (match ic with Some x => x | None => guess_interval_cols df end) d) as [a1 b1] eqn:D1. destruct (dq_check_nunique_values df' (match ic with Some x => x | None => guess_interval_cols df' end) d) as [a2 b2] eqn:D2. rewrite ?D1, ?D2 in PR. cbn [fst snd] in PR. destruct (bin_data npq a1 b1 bins q) as [[b dict]|]; [|discriminate]. cbn [rbind fst snd] in H.
  destruct (PR b dict SC S eq_refl) as (b' & dict' & -> & PB & NB). cbn [rbind fst snd]. eapply rebinned_cols; eassumption.
Qed.

(** the asymptotic significance matrix *)
Section Signif.
  Variable SL : slib.
  Variable St : Type.
  Variable multinomial : Z -> list R -> St -> res (list Z) * St.
  Variable randint : Z -> Z -> St -> Z * St.
  Variables (libm_exp libm_log : f64 -> f64) (uninit : nat -> list Z) (ib0 : Z) (fuel : nat) (cpp clamp : bool).
  Notation from_hist2d := (significance_from_hist2d SL St multinomial randint libm_exp libm_log uninit ib0 fuel cpp clamp).
  Notation rebinned := (significance_from_rebinned_df SL St multinomial randint libm_exp libm_log uninit ib0 fuel cpp clamp).
  Notation sig_matrix := (significance_matrix SL St multinomial randint libm_exp libm_log uninit ib0 fuel cpp clamp).

  Definition asym (lam : lambda) (m : mat) : res num := rmap snd (rbind (get_chi2 clamp m lam) (significance_from_chi2_asymptotic SL m)).
  Definition sig_val (lam : lambda) (h : htable) : res num := if is01 (length (h_rows h)) || is01 (length (h_cols h)) then Ok NaN else asym lam (hmat h).
  Definition sig_pair (lam : lambda) (p q : string * col) : res num := sig_val lam (crosstab (combine (c_cells (snd p)) (c_cells (snd q)))).
  Lemma calc_pure : forall nsim lam simm w pq s, calc_signif SL St multinomial randint libm_exp libm_log uninit ib0 fuel cpp clamp nsim lam simm "asymptotic" w (fst pq) (snd pq) s = (pair_row col (sig_pair lam) pq, s).
  Proof.
    intros nsim lam simm w [[c0 x] [c1 y]] s. unfold calc_signif, pair_row, sig_pair, sig_val, asym, mbind, ret, lift. cbn [fst snd]. set (h := crosstab _). destruct (_ || _); [reflexivity|]. unfold significance_from_hist2d, mbind, lift.
    destruct (get_chi2 clamp (hmat h) lam) as [chi2|]; [|reflexivity]. cbn [String.eqb Ascii.eqb Bool.eqb rbind]. destruct (significance_from_chi2_asymptotic SL (hmat h) chi2) as [[a b]|]; reflexivity.
  Qed.
  Lemma mmap_pure : forall A B (f : A -> SimModel.M St B) (g : A -> res B) l s, (forall a s, f a s = (g a, s)) -> mmap St f l s = (mapM g l, s).
  Proof.
    intros A B f g l s H. induction l as [|a l IH]; [reflexivity|]. cbn [mmap mapM]. unfold mbind, ret. rewrite H. destruct (g a) as [b|]; [|reflexivity]. rewrite IH. cbn [rbind]. destruct (mapM g l); reflexivity.
  Qed.
  Lemma rebinned_pure : forall f lam simm nsim d u o w s, fst (rebinned f lam simm nsim "asymptotic" d u o w) s =
    (rmap (fun vals => reindex (overview vals) (keys f)) (mapM (pair_row col (sig_pair lam)) (combos (clean d u o f))), s).
  Proof.
    intros f lam simm nsim d u o w s. unfold significance_from_rebinned_df. cbn [fst]. unfold mbind at 1. rewrite (mmap_pure _ _ _ (pair_row col (sig_pair lam))) by (intros; apply calc_pure). rewrite keys_clean.
    destruct (mapM _ _) as [vals|] eqn:E; [|reflexivity]. cbn [rmap]. unfold ret. destruct vals as [|v vals]; [|reflexivity].
    apply Base.mapM_ok in E. inversion E as [X Y|]. symmetry in X. apply combos_nil in X. assert (K : keys f = []) by (rewrite <- (keys_clean d u o), X; reflexivity). rewrite K. reflexivity.
  Qed.
  Lemma asym_eq : forall lam m m', mat_eq m m' -> asym lam m = asym lam m'.
  Proof.
    intros lam m m' H. unfold asym. rewrite (get_chi2_eq clamp m m' lam H). destruct (get_chi2 clamp m' lam) as [c|]; [|reflexivity]. cbn [rbind]. f_equal. unfold significance_from_chi2_asymptotic, theoretical_ndof. destruct H as (-> & -> & _). reflexivity.
  Qed.
  Lemma asym_transp : forall lam m, asym lam (transp m) = asym lam m.
  Proof.
    intros lam m. unfold asym. rewrite C15_transpose. destruct (get_chi2 clamp m lam); [|reflexivity]. cbn [rbind]. f_equal. unfold significance_from_chi2_asymptotic, theoretical_ndof. cbn [transp nr nc]. rewrite (Nat.mul_comm (nc m)), (Nat.add_comm (nc m)). reflexivity.
  Qed.
  Lemma sig_pair_sym : forall lam p q, sig_pair lam p q = sig_pair lam q p.
  Proof.
    intros lam [c0 x] [c1 y]. unfold sig_pair, sig_val. cbn [snd]. pose proof (crosstab_swap (combine (c_cells y) (c_cells x))) as T. rewrite <- (combine_swap _ _ (c_cells y) (c_cells x)) in T. set (h := crosstab (combine (c_cells y) _)) in *. set (h' := crosstab _) in *.
    assert (T0 := T). destruct T0 as (A & B & _). rewrite A, B, orb_comm. destruct (_ || _); [reflexivity|]. rewrite (asym_eq lam _ _ (hmat_transp _ _ T)). apply asym_transp.
  Qed.
  Theorem C85_significance_matrix : forall npq df df' ic lam simm nsim bins d u o w s t s', same_columns df df' -> bins_supported bins ->
    sig_matrix npq df ic lam simm nsim "asymptotic" bins d u o w s = (Ok t, s') -> exists t', sig_matrix npq df' ic lam simm nsim "asymptotic" bins d u o w s = (Ok t', s') /\ same_matrix t t'.
  Proof.
    intros npq df df' ic lam simm nsim bins d u o w s t s' SC S H. unfold significance_matrix in *. assert (PR := prepare_cols npq df df' ic bins false d). cbv beta zeta in PR.
    destruct (dq_check_nunique_values df (match ic with Some x => x | None => guess_interval_cols df end) d) as [a1 b1] eqn:D1. destruct (dq_check_nunique_values df' (match ic with Some x => x | None => guess_interval_cols df' end) d) as [a2 b2] eqn:D2. rewrite ?D1, ?D2 in PR. cbn [fst snd] in PR.
    unfold mbind at 1 in H. unfold mbind at 1. unfold lift in *. destruct (bin_data npq a1 b1 bins false) as [[b dict]|]; [|discriminate]. cbn [fst snd] in H. destruct (PR b dict SC S eq_refl) as (b' & dict' & -> & PB & NB). cbn [fst snd].
    rewrite rebinned_pure in *. destruct (mapM _ _) as [vals|] eqn:E in H; [|discriminate]. cbn [rmap] in H. injection H as <- <-.
    destruct (assembled_perm _ (sig_pair lam) (clean d u o b) (clean d u o b') vals) as (vals' & E' & SM); [intros; apply sig_pair_sym|rewrite keys_clean; exact NB|apply clean_perm; exact PB|exact E|].
    rewrite E'. cbn [rmap]. eexists. split; [reflexivity|]. rewrite !keys_clean in SM. exact SM.
  Qed.

  (** names of categories *)
  Lemma asym_perm : forall lam m I J, permutes m I J -> asym lam (submat m I J) = asym lam m.
  Proof.
    intros lam m I J PM. pose proof PM as (NI & NJ & HI & HJ). assert (RA : rearrangement m I J) by (split; [exact NI|]; split; [exact NJ|]; split; [intros; apply HI; assumption|]; split; [intros; apply HJ; assumption|]; intros i j Hi Hj _; split; [apply HI|apply HJ]; assumption).
    unfold asym. rewrite C15_rearrange by exact RA. destruct (get_chi2 clamp m lam); [|reflexivity]. cbn [rbind]. f_equal. destruct (permutes_len _ _ _ PM) as [E1 E2]. unfold significance_from_chi2_asymptotic, theoretical_ndof. cbn [submat nr nc]. rewrite E1, E2. reflexivity.
  Qed.
  Lemma sig_rename_l : forall lam d u o g k0 k1 k2 k3 n0 n1 n2 n3 x y, good_renaming g x ->
    sig_pair lam (k0, mkCol n0 (map (clean1 d u o) (map g x))) (k1, mkCol n1 (map (clean1 d u o) y)) = sig_pair lam (k2, mkCol n2 (map (clean1 d u o) x)) (k3, mkCol n3 (map (clean1 d u o) y)).
  Proof.
    intros lam d u o g k0 k1 k2 k3 n0 n1 n2 n3 x y G. unfold sig_pair. cbn [snd c_cells]. rewrite clean_rename by exact G.
    assert (CM : forall A B C (h : A -> B) (l : list A) (l' : list C), combine (map h l) l' = map (fun r => (h (fst r), snd r)) (combine l l')).
    { intros A B C h l. induction l as [|a l IH]; intros [|b l']; cbn; try reflexivity. rewrite IH. reflexivity. }
    rewrite CM. set (recs := combine (map (clean1 d u o) x) (map (clean1 d u o) y)).
    assert (INJ : forall r s, In r recs -> In s recs -> gclean g (fst r) = gclean g (fst s) -> fst r = fst s).
    { intros [a b] [a' b'] Hr Hs. apply in_combine_l in Hr, Hs. cbn [fst]. apply in_map_iff in Hr, Hs. destruct Hr as (v & <- & Hv), Hs as (z & <- & Hw). unfold gclean. destruct G as (G1 & G2 & G3).
      destruct (marker_dec (clean1 d u o v)) as [M|M], (marker_dec (clean1 d u o z)) as [M'|M']; intros E.
      + exact E.
      + exfalso. pose proof (clean_of_nonmarker _ _ _ _ M') as N. rewrite (clean_nonmarker d u o z N) in *. apply (G3 z Hw N). rewrite <- E. exact M.
      + exfalso. pose proof (clean_of_nonmarker _ _ _ _ M) as N. rewrite (clean_nonmarker d u o v N) in *. apply (G3 v Hv N). rewrite E. exact M'.
      + pose proof (clean_of_nonmarker _ _ _ _ M) as N. pose proof (clean_of_nonmarker _ _ _ _ M') as N'. rewrite (clean_nonmarker d u o v N), (clean_nonmarker d u o z N') in *. apply G1; assumption. }
    assert (NAN : forall r, In r recs -> (gclean g (fst r) = CNaN <-> fst r = CNaN)).
    { intros [a b] Hr. apply in_combine_l in Hr. cbn [fst]. apply in_map_iff in Hr. destruct Hr as (v & <- & Hv). unfold gclean. destruct (marker_dec (clean1 d u o v)) as [M|M]; [tauto|].
      destruct G as (G1 & G2 & G3). pose proof (clean_of_nonmarker _ _ _ _ M) as N. rewrite (clean_nonmarker d u o v N) in *. split; intros E; exfalso; [apply (G3 v Hv N); left; exact E|apply N; left; exact E]. }
    unfold sig_val. pose proof (rename_permutes (gclean g) recs INJ NAN) as RP. pose proof (rename_entries (gclean g) recs INJ NAN) as RE. pose proof (cols2 (gclean g) recs NAN) as C2.
    rewrite C2. assert (LI : length (h_rows (crosstab (map (fun r => (gclean g (fst r), snd r)) recs))) = length (h_rows (crosstab recs))) by (destruct RE as (R1 & _); cbn [hmat nr submat] in R1; rewrite R1; destruct (permutes_len _ _ _ RP) as [E _]; exact E).
    rewrite LI. destruct (_ || _); [reflexivity|]. rewrite (asym_eq lam _ _ RE). apply asym_perm. exact RP.
  Qed.
  Lemma sig_rename : forall lam d u o f c g, (forall x, In (c, x) f -> good_renaming g (c_cells x)) ->
    mapM (pair_row col (sig_pair lam)) (combos (clean d u o (rename c g f))) = mapM (pair_row col (sig_pair lam)) (combos (clean d u o f)).
  Proof.
    intros lam d u o f c g G. rewrite rename_map. unfold clean. rewrite map_map, !combos_map, !mapM_map_in. apply mapM_ext. intros [[k x] [k' y]] H. apply combos_In in H. destruct H as [Hp Hq]. cbn [fst snd]. unfold pair_row. cbn [fst snd]. f_equal.
    unfold gcol. destruct (String.eqb_spec k c) as [->|N], (String.eqb_spec k' c) as [->|N']; cbn [c_num c_cells].
    - rewrite (sig_rename_l lam d u o g c c c c (c_num x) (c_num y) (c_num x) (c_num y)) by (apply G; exact Hp). rewrite sig_pair_sym. rewrite (sig_rename_l lam d u o g c c c c (c_num y) (c_num x) (c_num y) (c_num x)) by (apply G; exact Hq). apply sig_pair_sym.
    - apply sig_rename_l. apply G. exact Hp.
    - rewrite sig_pair_sym. rewrite (sig_rename_l lam d u o g c k c k (c_num y) (c_num x) (c_num y) (c_num x)) by (apply G; exact Hq). apply sig_pair_sym.
    - reflexivity.
  Qed.
  Theorem C85_category_names : forall npq df ic lam simm nsim bins d u o w s c g, NoDup (keys df) ->
    ~ In c (match ic with Some l => l | None => guess_interval_cols df end) -> (forall x, In (c, x) df -> good_renaming g (c_cells x)) ->
    sig_matrix npq (rename c g df) ic lam simm nsim "asymptotic" bins d u o w s = sig_matrix npq df ic lam simm nsim "asymptotic" bins d u o w s.
  Proof.
    intros npq df ic lam simm nsim bins d u o w s c g N NC G. unfold significance_matrix. rewrite guess_rename. set (ic0 := match ic with Some x => x | None => guess_interval_cols df end) in *.
    rewrite dq_rename by (intros x Hx; apply G, assoc_In, Hx). destruct (dq_nunique_spec df ic0 d N) as [S1 S2]. destruct (dq_check_nunique_values df ic0 d) as [cdf ic'] eqn:E. cbn [fst snd] in *.
    assert (NC' : ~ In c ic') by (rewrite S2; intros H; apply filter_In in H; tauto).
    unfold mbind at 1 2, lift. rewrite bin_data_rename by exact NC'. destruct (bin_data npq cdf ic' bins false) as [[b dict]|] eqn:E2; [|reflexivity]. cbn [rmap rbind fst snd].
    rewrite !rebinned_pure. rewrite sig_rename; [|].
    - f_equal. f_equal. replace (keys (rename c g b)) with (keys b); [reflexivity|]. rewrite rename_map. unfold keys. rewrite map_map. reflexivity.
    - intros x Hx. assert (NB : NoDup (keys b)) by (apply bin_data_spec in E2; destruct E2 as [-> _]; rewrite S1; apply nodup_keys_filter; exact N).
      apply assoc_NoDup in Hx; [|exact NB]. apply bin_data_spec in E2. destruct E2 as (_ & F & _). rewrite F in Hx by exact NC'. apply G. apply assoc_In in Hx. rewrite S1 in Hx. apply filter_In in Hx. tauto.
  Qed.
End Signif.

(** global correlations *)
Definition name_at (l : list string) (i : nat) : string := nth i l EmptyString.
Definition ninverse (l : list string) (A B : string -> string -> R) : Prop :=
  forall a b, In a l -> In b l -> lsum (fun c => (A a c * B c b)%R) l = if string_dec a b then 1%R else 0%R.
Definition index (l : list string) (a : string) : nat := match pos a l with Some i => i | None => 0%nat end.
Lemma index_at : forall l i, NoDup l -> (i < length l)%nat -> index l (name_at l i) = i.
Proof. intros l i N H. unfold index, name_at. rewrite pos_nodup by assumption. reflexivity. Qed.
Lemma at_index : forall l a, In a l -> (index l a < length l)%nat /\ name_at l (index l a) = a.
Proof. intros l a H. unfold index, name_at. destruct (pos_In a l H) as (i & -> & Hi & E). auto. Qed.
Lemma to_names : forall l V W, NoDup l -> right_inverse (length l) V W -> ninverse l (fun a b => V (index l a) (index l b)) (fun a b => W (index l a) (index l b)).
Proof.
  intros l V W N H a b Ha Hb. destruct (at_index l a Ha) as [I1 E1]. destruct (at_index l b Hb) as [I2 E2]. rewrite <- (lsum_nth _ _ l EmptyString). pose proof (H (index l a) (index l b) I1 I2) as X.
  rewrite (lsum_ext _ _ (fun k => V (index l a) k * W k (index l b))%R).
  - rewrite X. destruct (string_dec a b) as [->|NE]; [rewrite Nat.eqb_refl; reflexivity|]. destruct (Nat.eqb_spec (index l a) (index l b)) as [E|]; [|reflexivity]. exfalso. apply NE. rewrite <- E1, <- E2, E. reflexivity.
  - intros k Hk. apply in_seq in Hk. change (nth k l EmptyString) with (name_at l k). rewrite index_at by (try exact N; lia). reflexivity.
Qed.
Lemma of_names : forall l A B, NoDup l -> ninverse l A B -> right_inverse (length l) (fun i j => A (name_at l i) (name_at l j)) (fun i j => B (name_at l i) (name_at l j)).
Proof.
  intros l A B N H i j Hi Hj. pose proof (lsum_nth _ (fun c => A (name_at l i) c * B c (name_at l j))%R l EmptyString) as X. unfold name_at in *. rewrite X. rewrite (H _ _ (nth_In _ _ Hi) (nth_In _ _ Hj)).
  destruct (Nat.eqb_spec i j) as [->|NE]; [destruct (string_dec _ _); [reflexivity|congruence]|]. destruct (string_dec _ _) as [E|]; [|reflexivity]. exfalso. apply NE. exact (proj1 (NoDup_nth l EmptyString) N i j Hi Hj E).
Qed.
Lemma ninverse_perm : forall l l' A B, Permutation l l' -> ninverse l A B -> ninverse l' A B.
Proof. intros l l' A B P H a b Ha Hb. rewrite <- (lsum_perm _ _ _ _ P). apply H; eapply Permutation_in; try eassumption; apply Permutation_sym; exact P. Qed.
Lemma pick_one : forall l (f : string -> R) a, NoDup l -> In a l -> lsum (fun c => (if string_dec c a then 1 else 0) * f c)%R l = f a.
Proof.
  intros l f a N. induction N as [|x l Hx N IH]; intros H; [contradiction|]. rewrite lsum_cons. destruct H as [->|H].
  - destruct (string_dec a a); [|congruence]. rewrite lsum_0; [ring|]. intros c Hc. destruct (string_dec c a); [subst; contradiction|ring].
  - rewrite (IH H). destruct (string_dec x a); [subst; contradiction|]. ring.
Qed.
Lemma ninverse_unique : forall l A B B', NoDup l -> (forall a b, In a l -> In b l -> A a b = A b a) -> ninverse l A B -> ninverse l A B' -> forall a b, In a l -> In b l -> B a b = B' a b.
Proof.
  intros l A B B' N S H H'. assert (G : forall X, ninverse l A X -> forall a b, In a l -> In b l -> X a b = B b a).
  { intros X HX a b Ha Hb. rewrite <- (pick_one l (fun c => X c b) a N Ha).
    rewrite (lsum_ext _ _ (fun c => lsum (fun k => B k a * (A k c * X c b)) l)%R).
    - rewrite lsum_swap. rewrite (lsum_ext _ _ (fun k => (if string_dec k b then 1 else 0) * B k a)%R); [exact (pick_one l (fun k => B k a) b N Hb)|]. intros k Hk. rewrite lsum_scal, (HX k b Hk Hb). ring.
    - intros c Hc. rewrite (lsum_ext _ _ (fun k => (A c k * B k a) * X c b)%R) by (intros k Hk; rewrite (S k c) by assumption; ring). rewrite lsum_scal_r, (H c a Hc Ha). reflexivity. }
  intros a b Ha Hb. rewrite (G B H a b Ha Hb), (G B' H' a b Ha Hb). reflexivity.
Qed.
Lemma combine_names : forall l (F : string -> num), combine l (map F l) = map (fun c => (c, F c)) l.
Proof. induction l as [|a l IH]; intros F; [reflexivity|]. cbn. rewrite IH. reflexivity. Qed.
Lemma map_at : forall (l : list string) (F : string -> num), map (fun i => F (name_at l i)) (seq 0 (length l)) = map F l.
Proof.
  intros l F. assert (G : forall k s (h : nat -> string), (forall i, (i < length k)%nat -> h (s + i)%nat = nth i k EmptyString) -> map (fun i => F (h i)) (seq s (length k)) = map F k).
  { induction k as [|a k IH]; intros s h Hh; [reflexivity|]. cbn [length seq map]. f_equal; [rewrite <- (Nat.add_0_r s), Hh by (simpl; lia); reflexivity|]. apply IH. intros i Hi. replace (S s + i)%nat with (s + S i)%nat by lia. rewrite Hh by (simpl; lia). reflexivity. }
  apply (G l 0%nat (name_at l)). reflexivity.
Qed.

Definition no_nan (t : ntable) : Prop := forall a b, In a (t_index t) -> In b (t_index t) -> exists v, tval t a b = Fin v.
Definition rval (t : ntable) (a b : string) : R := match tval t a b with Fin v => v | _ => 0%R end.
Lemma cells_rows : forall t l, t_index t = l -> t_columns t = l -> NoDup l -> well_formed t -> no_nan t -> t_cells t = rows_of (length l) (fun i j => rval t (name_at l i) (name_at l j)).
Proof.
  intros t l I C N (W1 & W2) NN. apply (nth_ext_rows _ _ (length l)).
  - rewrite W1, I. reflexivity.
  - unfold rows_of. rewrite map_length, seq_length. reflexivity.
  - intros r Hr. rewrite (W2 r Hr), C. reflexivity.
  - intros r Hr. unfold rows_of in Hr. apply in_map_iff in Hr. destruct Hr as (i & <- & _). rewrite map_length, seq_length. reflexivity.
  - intros i j Hi Hj. rewrite rows_nth2 by assumption. rewrite (cells_tval t l i j I C N Hi Hj). unfold rval, name_at. destruct (NN (nth i l EmptyString) (nth j l EmptyString)) as (v & ->); [rewrite I; apply nth_In; exact Hi|rewrite I; apply nth_In; exact Hj|reflexivity].
Qed.
(** what global_phik computes from a symmetric matrix without NaN, by names *)
Lemma global_names : forall inv t l, t_index t = l -> t_columns t = l -> NoDup l -> well_formed t -> no_nan t -> (forall a b, tval t a b = tval t b a) -> (forall n V, inverts inv n V) ->
  let r := (let* W := inv (t_cells t) in Ok (map (fun i => global_value (nth i (nth i (t_cells t) []) NaN) (nth i (nth i W []) NaN)) (seq 0 (length (t_cells t))), t_index t)) in
  (exists B, ninverse l (rval t) B /\ r = Ok (map (fun c => global_value (Fin (rval t c c)) (Fin (B c c))) l, l)) \/ ((forall B, ~ ninverse l (rval t) B) /\ r = Raise LinAlgError).
Proof.
  intros inv t l I C N WF NN SY IV r. unfold r. rewrite (cells_rows t l I C N WF NN), I. set (V := fun i j => rval t (name_at l i) (name_at l j)).
  assert (LR : length (rows_of (length l) V) = length l) by (unfold rows_of; rewrite map_length; apply seq_length). rewrite LR.
  destruct (IV (length l) V) as [(W & RI & ->)|[NI ->]]; cbn [rbind].
  - left. exists (fun a b => W (index l a) (index l b)). split.
    + intros a b Ha Hb. rewrite <- (to_names l V W N RI a b Ha Hb). apply lsum_ext. intros c Hc. unfold V. rewrite (proj2 (at_index l a Ha)), (proj2 (at_index l c Hc)). reflexivity.
    + f_equal. f_equal. rewrite <- map_at. apply map_ext_in. intros i Hi. apply in_seq in Hi. rewrite !rows_nth2 by lia. rewrite index_at by (try exact N; lia). reflexivity.
  - right. split; [|reflexivity]. intros B HB. apply (NI (fun i j => B (name_at l i) (name_at l j))). apply (of_names l (rval t) B N HB).
Qed.
Theorem C85_global_phik : forall npq L inv df df' ic bins q noise d u o t, lib_ok L -> same_columns df df' -> bins_supported bins -> (forall n V, inverts inv n V) ->
  phik_matrix npq L df ic bins q noise d u o = Ok t -> no_nan t ->
  match global_phik_array npq L inv df ic bins q noise d u o with
  | Ok g => exists g', global_phik_array npq L inv df' ic bins q noise d u o = Ok g' /\ Permutation (combine (snd g) (fst g)) (combine (snd g') (fst g'))
  | Raise e => e = LinAlgError /\ global_phik_array npq L inv df' ic bins q noise d u o = Raise LinAlgError
  end.
Proof.
  intros npq L inv df df' ic bins q noise d u o t LO SC S IV H NN. unfold phik_matrix in H. unfold global_phik_array. assert (PR := prepare_cols npq df df' ic bins q d). cbv beta zeta in PR.
  destruct (dq_check_nunique_values df (match ic with Some x => x | None => guess_interval_cols df end) d) as [a1 b1] eqn:D1. destruct (dq_check_nunique_values df' (match ic with Some x => x | None => guess_interval_cols df' end) d) as [a2 b2] eqn:D2. rewrite ?D1, ?D2 in PR. cbn [fst snd] in PR.
  destruct (bin_data npq a1 b1 bins q) as [[b dict]|]; [|discriminate]. cbn [rbind fst snd] in *. destruct (PR b dict SC S eq_refl) as (b' & dict' & -> & PB & NB). cbn [rbind fst snd].
  destruct (rebinned_cols L noise d u o b b' t LO NB PB H) as (t' & H' & SM). assert (NB' : NoDup (keys b')) by (eapply Permutation_NoDup; [apply keys_perm; exact PB|exact NB]).
  pose proof (phik_matrix_layout L b noise d u o LO NB) as LA. rewrite H in LA. pose proof (phik_matrix_layout L b' noise d u o LO NB') as LA'. rewrite H' in LA'.
  destruct LA as (I & C & WF & SY & _). destruct LA' as (I' & C' & WF' & SY' & _). destruct SM as (PI & PC & EQ).
  assert (NN' : no_nan t'). { intros x y Hx Hy. rewrite <- EQ. apply NN; eapply Permutation_in; try eassumption; apply Permutation_sym; exact PI. }
  assert (RV : forall x y, rval t' x y = rval t x y) by (intros; unfold rval; rewrite EQ; reflexivity).
  pose proof (keys_perm _ _ _ PB) as PK. unfold global_phik_from_rebinned_df. rewrite H, H'. cbn [rbind].
  assert (TR : forall k X, ninverse k (rval t') X <-> ninverse k (rval t) X) by (intros k X; split; intros Y x y Hx Hy; rewrite <- (Y x y Hx Hy); apply lsum_ext; intros z _; rewrite RV; reflexivity).
  destruct (global_names inv t (keys b) I C NB WF NN SY IV) as [(B & HB & ->)|(HB & ->)]; destruct (global_names inv t' (keys b') I' C' NB' WF' NN' SY' IV) as [(B' & HB' & ->)|(HB' & ->)].
  - eexists. split; [reflexivity|]. cbn [fst snd]. rewrite !combine_names. apply TR in HB'. apply (ninverse_perm _ _ _ _ (Permutation_sym PK)) in HB'.
    rewrite (map_ext_in _ (fun c => (c, global_value (Fin (rval t c c)) (Fin (B' c c))))).
    + rewrite (map_ext (fun c => (c, global_value (Fin (rval t' c c)) (Fin (B' c c)))) (fun c => (c, global_value (Fin (rval t c c)) (Fin (B' c c))))) by (intros c; rewrite RV; reflexivity). apply Permutation_map. exact PK.
    + intros c Hc. rewrite (ninverse_unique (keys b) (rval t) B B' NB) by (try assumption; intros x y _ _; unfold rval; rewrite SY; reflexivity). reflexivity.
  - exfalso. apply (HB' B). apply TR. eapply ninverse_perm; eassumption.
  - exfalso. apply (HB B'). apply TR in HB'. eapply ninverse_perm; [apply Permutation_sym; exact PK|exact HB'].
  - auto.
Qed.
(** the restriction on the bins argument is needed: with an entry that is neither a number nor a list (here None) the edges of the
    previous column are used, so that the order of the columns decides between an answer and an exception *)
Definition f85 : frame := [("a", mkCol true [CInt 0; CInt 1; CInt 0]); ("b", mkCol true [CInt 1; CInt 0; CInt 0])]%string%Z.
Definition g85 : frame := [("b", mkCol true [CInt 1; CInt 0; CInt 0]); ("a", mkCol true [CInt 0; CInt 1; CInt 0])]%string%Z.
Definition bins85 : bins_arg := BDict [("a", BEdges [ofZ (-1); ofZ 0; ofZ 1]); ("b", BOther)]%string.
Theorem C85_unsupported_bins : forall npq L, lib_ok L -> lib_converges L -> same_columns f85 g85 /\
  (exists t, phik_matrix npq L f85 None bins85 false true true true true = Ok t) /\ phik_matrix npq L g85 None bins85 false true true true true = Raise UnboundLocalError.
Proof.
  intros npq L LO LC. assert (N : NoDup (keys f85)) by (cbn; repeat constructor; cbn; intuition discriminate). split; [split; [exact N|apply perm_swap]|]. split.
  - unfold phik_matrix. cbv zeta. assert (D : dq_check_nunique_values f85 (guess_interval_cols f85) true = (f85, ["a"; "b"]%string)) by reflexivity. rewrite D.
    assert (X : exists b dict, bin_data npq f85 ["a"; "b"]%string bins85 false = Ok (b, dict) /\ keys b = ["a"; "b"]%string) .
    { unfold bin_data, bins85, f85. cbn - [bin_array ofZ]. destruct (bin_array _ _) as [b1 l1]. cbn - [bin_array ofZ]. destruct (bin_array _ _) as [b2 l2]. cbn. eexists _, _. split; reflexivity. }
    destruct X as (b & dict & -> & K). cbn [rbind fst]. assert (NB : NoDup (keys b)) by (rewrite K; exact N).
    pose proof (phik_matrix_layout L b true true true true LO NB) as LA. destruct (fst (phik_from_rebinned_df _ _ _ _ _ _)) as [t|e]; [eauto|]. exfalso. apply (proj2 LA). exact LC.
  - unfold phik_matrix. cbv zeta. assert (D : dq_check_nunique_values g85 (guess_interval_cols g85) true = (g85, ["b"; "a"]%string)) by reflexivity. rewrite D. unfold bin_data, bins85, g85. cbn - [bin_array ofZ]. reflexivity.
Qed.
Example C85_columns_case : same_columns f85 g85 /\ bins_supported (BDict [("a", BNum 2); ("b", BEdges [ofZ (-1); ofZ 0; ofZ 1])]%string%Z) /\ f85 <> g85.
Proof.
  split; [split; [cbn; repeat constructor; cbn; intuition discriminate|apply perm_swap]|]. split; [|discriminate].
  intros c. cbn [assoc]. destruct (String.eqb c _); [discriminate|]. destruct (String.eqb c _); discriminate.
Qed.
Print Assumptions C85_global_phik. Print Assumptions C85_phik_matrix. Print Assumptions C85_significance_matrix. Print Assumptions C85_category_names.
