(** C118: the list of interval columns is a set of names: its order, repetitions and unknown names do not matter. *)
From Coq Require Import String ZArith List Bool Lia.
Import ListNotations.
From Verif Require Import F64 Base Cells BinModel SpecBin BinProofs BinDataProofs HistModel HistProofs PhikModel SpecPhik FrameProofs PhikInvProofs Chi2FModel StatsModel SigModel PhikMatFModel SigMatFModel OutModel OutMatFModel OutMatsFModel
  PropsChi2F PropsMatF SpecOutMatsF PropsOutMatsF PropsAlone.
Open Scope list_scope.

Lemma frame_ext : forall (f g : frame), NoDup (keys f) -> keys f = keys g -> (forall c, assoc c f = assoc c g) -> f = g.
Proof.
  induction f as [|[k x] f IH]; intros [|[k' y] g] N K A; try discriminate K; [reflexivity|]. cbn in K. injection K as <- K. cbn in N. apply NoDup_cons_iff in N. destruct N as [N1 N2].
  pose proof (A k) as E. cbn [assoc] in E. rewrite String.eqb_refl in E. injection E as <-. f_equal. apply IH; [exact N2|exact K|]. intros c. specialize (A c). cbn [assoc] in A.
  destruct (String.eqb_spec c k) as [E|E]; [subst c|exact A]. assert (H : assoc k f = None) by (apply assoc_None; exact N1). assert (H' : assoc k g = None) by (apply assoc_None; unfold keys in *; rewrite <- K; exact N1). congruence.
Qed.
(** two lists name the same columns of a frame *)
Definition same_names (df : frame) (l l' : list string) : Prop := forall c, In c (keys df) -> (In c l <-> In c l').
Lemma mem_eq : forall l l' c, (In c l <-> In c l') -> mem c l = mem c l'.
Proof. intros l l' c H. destruct (mem c l) eqn:A; destruct (mem c l') eqn:B; try reflexivity; exfalso; [apply mem_In in A; apply H in A; apply mem_In in A; congruence|apply mem_In in B; apply H in B; apply mem_In in B; congruence]. Qed.
Lemma keys_filtered : forall B (p : string -> bool) (f : list (string * B)), keys (filter (fun q => p (fst q)) f) = filter p (keys f).
Proof. intros B p f. induction f as [|[k x] f IH]; [reflexivity|]. cbn [filter fst keys map]. destruct (p k); cbn [map fst]; unfold keys in *; rewrite IH; reflexivity. Qed.
Lemma dq_filter : forall df ic d, exists p : string -> bool, fst (dq_check_nunique_values df ic d) = filter (fun q => p (fst q)) df.
Proof.
  intros df ic d. unfold dq_check_nunique_values. cbv zeta. match goal with |- context [match ?l with _ => _ end] => generalize l end. intros [|s dr]; cbn [fst].
  - exists (fun _ => true). symmetry. apply filter_true.
  - exists (fun c => negb (mem c (s :: dr))). reflexivity.
Qed.
Lemma dq_same : forall df ic ic' d, NoDup (keys df) -> same_names df ic ic' ->
  fst (dq_check_nunique_values df ic d) = fst (dq_check_nunique_values df ic' d) /\ (forall c, In c (snd (dq_check_nunique_values df ic d)) <-> In c (snd (dq_check_nunique_values df ic' d))).
Proof.
  intros df ic ic' d N S. assert (D : forall c, mem c (keys df) = true -> dropped df ic d c = dropped df ic' d c /\ mem c ic = mem c ic').
  { intros c K. assert (M : mem c ic = mem c ic') by (apply mem_eq, S, mem_In, K). unfold dropped. rewrite M. auto. }
  destruct (dq_form df ic d) as (F1 & F2 & F3). destruct (dq_form df ic' d) as (G1 & G2 & G3). 
  assert (A : forall c, assoc c (fst (dq_check_nunique_values df ic d)) = assoc c (fst (dq_check_nunique_values df ic' d))).
  { intros c. destruct (mem c (keys df)) eqn:K; [rewrite (F1 c K), (G1 c K), (proj1 (D c K)); reflexivity|rewrite (proj1 (F2 c K)), (proj1 (G2 c K)); reflexivity]. }
  split.
  - apply frame_ext; [apply nodup_dq, N| |exact A]. destruct (dq_filter df ic d) as (p & P). destruct (dq_filter df ic' d) as (q & Q). rewrite P, Q in *. rewrite !keys_filtered. apply filter_ext_in. intros c Hc.
    specialize (A c). rewrite !assoc_filter in A. destruct (p c), (q c); try reflexivity; exfalso; [apply (proj1 (assoc_None _ _ _) A); exact Hc|apply (proj1 (assoc_None _ _ _) (eq_sym A)); exact Hc].
  - intros c. rewrite <- !mem_In. destruct (mem c (keys df)) eqn:K; [rewrite (F3 c K), (G3 c K), (proj1 (D c K)), (proj2 (D c K)); tauto|rewrite (proj2 (F2 c K)), (proj2 (G2 c K)); tauto].
Qed.

Section Bin.
  Variable npq : list f64 -> Z -> list f64.
  (** bin_data: the order of [cols] and repetitions do not matter, neither for the frame nor for the bin labels of a column *)
  Theorem C118_bin_data : forall data cols cols' bins q out dict, bin_data npq data cols bins q = Ok (out, dict) -> NoDup (keys data) ->
    (forall c, In c cols <-> In c cols') -> (forall c, In c cols -> supported (spec_of bins c)) ->
    exists dict', bin_data npq data cols' bins q = Ok (out, dict') /\ forall c, assoc c dict' = assoc c dict.
  Proof.
    intros data cols cols' bins q out dict H N C S. destruct (bin_data_spec _ _ _ _ _ _ _ H) as (K & NI & IN).
    destruct (bin_data_total npq data cols' bins q) as (out' & dict' & H').
    { intros c Hc. apply C in Hc. destruct (IN c Hc (S c Hc)) as (column & arr & edges & A1 & A2 & A3 & _). exists column, arr, edges. auto. }
    destruct (bin_data_spec _ _ _ _ _ _ _ H') as (K' & NI' & IN').
    assert (A : forall c, assoc c out' = assoc c out /\ assoc c dict' = assoc c dict).
    { intros c. destruct (in_dec string_dec c cols) as [Hc|Hc].
      - destruct (IN c Hc (S c Hc)) as (c1 & arr & e & A1 & A2 & A3 & A4 & A5). destruct (IN' c (proj1 (C c) Hc) (S c Hc)) as (c2 & arr2 & e2 & B1 & B2 & B3 & B4 & B5).
        assert (c1 = c2) as -> by congruence. assert (arr = arr2) as -> by congruence. assert (e = e2) as -> by exact (asks_fun _ _ _ _ _ _ _ (S c Hc) A3 B3). split; congruence.
      - assert (Hc' : ~ In c cols') by (rewrite <- C; exact Hc). rewrite (NI c Hc), (NI' c Hc'), (bin_data_dict _ _ _ _ _ _ _ c H Hc), (bin_data_dict _ _ _ _ _ _ _ c H' Hc'). auto. }
    exists dict'. split; [|intros c; apply A]. rewrite H'. do 2 f_equal. apply frame_ext; [rewrite K'; exact N|congruence|intros c; apply A].
  Qed.
  Lemma prep_names : forall df ic ic' bins q d out dict, same_names df ic ic' -> NoDup (keys df) -> (forall c, In c (keys df) -> In c ic -> supported (spec_of bins c)) ->
    (let dq := dq_check_nunique_values df ic d in bin_data npq (fst dq) (snd dq) bins q) = Ok (out, dict) ->
    exists dict', (let dq := dq_check_nunique_values df ic' d in bin_data npq (fst dq) (snd dq) bins q) = Ok (out, dict') /\ forall c, assoc c dict' = assoc c dict.
  Proof.
    intros df ic ic' bins q d out dict SN N S H. cbv zeta in *. destruct (dq_same df ic ic' d N SN) as [E C]. rewrite <- E.
    destruct (C118_bin_data _ _ _ _ _ _ _ H (nodup_dq _ _ _ N) C) as (dict' & H' & DE); [|eauto]. intros c Hc. destruct (dq_form df ic d) as (_ & F2 & F3). destruct (mem c (keys df)) eqn:K.
    - apply S; [apply mem_In, K|]. apply mem_In in Hc. rewrite (F3 c K) in Hc. apply andb_true_iff in Hc. apply mem_In. tauto.
    - apply mem_In in Hc. rewrite (proj2 (F2 c K)) in Hc. discriminate Hc.
  Qed.
End Bin.

(** phik_matrix; [ic] = None is the list of the numeric columns *)
Theorem C118_phik : forall add_up chi2_rho comp npq df ic ic' bins q noise d u o t, same_names df (intervals ic df) (intervals ic' df) -> NoDup (keys df) ->
  (forall c, In c (keys df) -> In c (intervals ic df) -> supported (spec_of bins c)) ->
  phik_matrix_64 add_up chi2_rho comp npq df ic bins q noise d u o = Ok t -> phik_matrix_64 add_up chi2_rho comp npq df ic' bins q noise d u o = Ok t.
Proof.
  intros add_up chi2_rho comp npq df ic ic' bins q noise d u o t SN N S H. unfold phik_matrix_64 in *. fold (intervals ic df) in H. fold (intervals ic' df).
  assert (P := fun out dict => prep_names npq df (intervals ic df) (intervals ic' df) bins q d out dict SN N S). cbv zeta in P.
  destruct (dq_check_nunique_values df (intervals ic df) d) as [g l]. destruct (dq_check_nunique_values df (intervals ic' df) d) as [g' l']. cbn [fst snd] in P. destruct (bin_data npq g l bins q) as [[out dict]|]; [|discriminate H].
  destruct (P out dict eq_refl) as (dict' & -> & _). exact H.
Qed.
(** significance_matrix *)
Theorem C118_significance : forall percentile add_up add_mean flog fppf fsf fnsf ffit comp npq df ic ic' s lam sims bins d u o t, same_names df (intervals ic df) (intervals ic' df) -> NoDup (keys df) ->
  (forall c, In c (keys df) -> In c (intervals ic df) -> supported (spec_of bins c)) ->
  signif_matrix_64 percentile add_up add_mean flog fppf fsf fnsf ffit comp npq df ic s lam sims bins d u o = Ok t ->
  signif_matrix_64 percentile add_up add_mean flog fppf fsf fnsf ffit comp npq df ic' s lam sims bins d u o = Ok t.
Proof.
  intros percentile add_up add_mean flog fppf fsf fnsf ffit comp npq df ic ic' s lam sims bins d u o t SN N S H. unfold signif_matrix_64 in *. fold (intervals ic df) in H. fold (intervals ic' df).
  assert (P := fun out dict => prep_names npq df (intervals ic df) (intervals ic' df) bins false d out dict SN N S). cbv zeta in P.
  destruct (dq_check_nunique_values df (intervals ic df) d) as [g l]. destruct (dq_check_nunique_values df (intervals ic' df) d) as [g' l']. cbn [fst snd] in P. destruct (bin_data npq g l bins false) as [[out dict]|]; [|discriminate H].
  destruct (P out dict eq_refl) as (dict' & -> & _). exact H.
Qed.
(** outlier_significance_matrices, with the bin labels returned *)
Lemma mapM_ext_all : forall A B (f g : A -> res B) l, (forall x, f x = g x) -> mapM f l = mapM g l.
Proof. intros A B f g l E. induction l as [|x l IH]; [reflexivity|]. cbn [mapM]. rewrite E, IH. reflexivity. Qed.
Theorem C118_outliers : forall fbetainc fgammaln fpsf fplogsf fppf flog fexpo pow2 fmt npq df ic ic' nd bins q combos d u o res dict, same_names df (intervals ic df) (intervals ic' df) -> NoDup (keys df) ->
  (forall c, In c (keys df) -> In c (intervals ic df) -> supported (spec_of bins c)) ->
  outlier_matrices_64 fbetainc fgammaln fpsf fplogsf fppf flog fexpo pow2 fmt npq df ic nd bins q combos d u o = Ok (res, dict) ->
  exists dict', outlier_matrices_64 fbetainc fgammaln fpsf fplogsf fppf flog fexpo pow2 fmt npq df ic' nd bins q combos d u o = Ok (res, dict') /\ forall c, assoc c dict' = assoc c dict.
Proof.
  intros fbetainc fgammaln fpsf fplogsf fppf flog fexpo pow2 fmt npq df ic ic' nd bins q combos d u o res dict SN N S H. unfold outlier_matrices_64 in *. fold (intervals ic df) in H. fold (intervals ic' df).
  assert (P := fun out dict => prep_names npq df (intervals ic df) (intervals ic' df) bins q d out dict SN N S). cbv zeta in P.
  destruct (dq_check_nunique_values df (intervals ic df) d) as [g l]. destruct (dq_check_nunique_values df (intervals ic' df) d) as [g' l']. cbn [fst snd] in P. destruct (bin_data npq g l bins q) as [[out dict0]|]; [|discriminate H].
  destruct (P out dict0 eq_refl) as (dict' & -> & DE). cbn [rbind fst snd] in *. exists dict'.
  assert (E : forall c, outlier_pair_64 fbetainc fgammaln fpsf fplogsf fppf flog fexpo pow2 fmt out dict' nd d u o c = outlier_pair_64 fbetainc fgammaln fpsf fplogsf fppf flog fexpo pow2 fmt out dict0 nd d u o c).
  { intros [a b]. unfold outlier_pair_64, two_columns. cbn [fst snd]. destruct (String.eqb a b); [destruct (assoc a out); reflexivity|]. destruct (assoc a out) as [x|]; [|reflexivity]. destruct (assoc b out) as [y|]; [|reflexivity]. cbn [rbind].
    rewrite (rebinned_dict fbetainc fgammaln fpsf fplogsf fppf flog fexpo pow2 fmt a x b y dict0 dict' nd d u o (DE a) (DE b)). reflexivity. }
  unfold outlier_pairs_64 in *. rewrite (mapM_ext_all _ _ _ _ _ E). destruct (mapM _ _) as [ms|]; [|discriminate H]. cbn [rbind] in *. injection H as <- <-. split; [reflexivity|exact DE].
Qed.
(** neither restriction can be left out. With a bins entry that is neither a number nor a list (b: None) the order of the list decides between an answer and an
    exception; and bin_data itself, which does not drop unknown names, raises for them *)
Theorem C118_refuted : NoDup (keys f117) /\ same_names f117 ["a"; "b"]%string ["b"; "a"]%string /\
  is_ok (phik_matrix_64 in_turn square_rho true qs117 f117 (Some ["a"; "b"]%string) (bins117 BOther) false false true true true) = true /\
  phik_matrix_64 in_turn square_rho true qs117 f117 (Some ["b"; "a"]%string) (bins117 BOther) false false true true true = Raise UnboundLocalError /\
  bin_data qs117 f117 ["a"; "x"]%string (BOne (BNum 2)) false = Raise KeyError.
Proof. split; [repeat constructor; cbn; intuition discriminate|]. split; [intros c _; cbn; tauto|]. repeat split; vm_compute; reflexivity. Qed.
Example C118_hypotheses_met : NoDup (keys f117) /\ same_names f117 (intervals None f117) (intervals (Some ["x"; "b"; "a"; "b"]) f117)%string /\
  (forall c, In c (keys f117) -> In c (intervals None f117) -> supported (spec_of (bins117 (BNum 2)) c)) /\
  is_ok (phik_matrix_64 in_turn square_rho true qs117 f117 None (bins117 (BNum 2)) false false true true true) = true.
Proof.
  split; [repeat constructor; cbn; intuition discriminate|]. split; [intros c H; cbn in *; intuition (subst; try discriminate; auto)|]. split; [|vm_compute; reflexivity].
  intros c _ H. cbn in H. destruct H as [<-|[<-|[]]]; exact I.
Qed.
Print Assumptions C118_phik.
Print Assumptions C118_outliers.
