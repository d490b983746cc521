(** C119: of the bins argument only what it says about each interval column matters. *)
From Coq Require Import String ZArith List Bool Lia.
Import ListNotations.
From Verif Require Import F64 Base Cells BinModel SpecBin BinProofs BinDataProofs HistModel HistProofs PhikModel SpecPhik FrameProofs PhikInvProofs Chi2FModel StatsModel SigModel PhikMatFModel SigMatFModel OutModel OutMatFModel OutMatsFModel
  PropsChi2F PropsMatF SpecOutMatsF PropsOutMatsF PropsAlone PropsIcols.
Open Scope list_scope.

(** two pairs of arguments (bins, quantile) ask for the same edges of a column: a number of bins, the same, with the same quantile flag; or the same list of edges *)
Definition same_request (bins : bins_arg) (q : bool) (bins' : bins_arg) (q' : bool) (c : string) : Prop :=
  match spec_of bins c, spec_of bins' c with
  | Some (BNum n), Some (BNum n') => n = n' /\ q = q'
  | Some (BEdges l), Some (BEdges l') => l = l'
  | _, _ => False
  end.
Lemma same_asks : forall npq bins q bins' q' c arr e, same_request bins q bins' q' c -> asks_for npq bins q c arr e -> asks_for npq bins' q' c arr e.
Proof. intros npq bins q bins' q' c arr e S A. unfold same_request, asks_for in *. destruct (spec_of bins c) as [[n|l|]|]; try contradiction; destruct (spec_of bins' c) as [[n'|l'|]|]; try contradiction; [destruct S as [<- <-]; exact A|congruence]. Qed.
Lemma same_supported : forall bins q bins' q' c, same_request bins q bins' q' c -> supported (spec_of bins c) /\ supported (spec_of bins' c).
Proof. intros bins q bins' q' c S. unfold same_request, supported in *. destruct (spec_of bins c) as [[n|l|]|]; try contradiction; destruct (spec_of bins' c) as [[n'|l'|]|]; try contradiction; auto. Qed.

Section Bin.
  Variable npq : list f64 -> Z -> list f64.
  Theorem C119_bin_data : forall data cols bins q bins' q' out dict, bin_data npq data cols bins q = Ok (out, dict) -> NoDup (keys data) ->
    (forall c, In c cols -> same_request bins q bins' q' c) ->
    exists dict', bin_data npq data cols bins' q' = Ok (out, dict') /\ forall c, assoc c dict' = assoc c dict.
  Proof.
    intros data cols bins q bins' q' out dict H N S. destruct (bin_data_spec _ _ _ _ _ _ _ H) as (K & NI & IN).
    assert (S1 : forall c, In c cols -> supported (spec_of bins c)) by (intros c Hc; apply (same_supported _ _ _ _ _ (S c Hc))). assert (S2 : forall c, In c cols -> supported (spec_of bins' c)) by (intros c Hc; apply (same_supported _ _ _ _ _ (S c Hc))).
    destruct (bin_data_total npq data cols bins' q') as (out' & dict' & H').
    { intros c Hc. destruct (IN c Hc (S1 c Hc)) as (column & arr & edges & A1 & A2 & A3 & _). exists column, arr, edges. split; [exact A1|]. split; [exact A2|]. exact (same_asks _ _ _ _ _ _ _ _ (S c Hc) A3). }
    destruct (bin_data_spec _ _ _ _ _ _ _ H') as (K' & NI' & IN').
    assert (A : forall c, assoc c out' = assoc c out /\ assoc c dict' = assoc c dict).
    { intros c. destruct (in_dec string_dec c cols) as [Hc|Hc].
      - destruct (IN c Hc (S1 c Hc)) as (c1 & arr & e & A1 & A2 & A3 & A4 & A5). destruct (IN' c Hc (S2 c Hc)) as (c2 & arr2 & e2 & B1 & B2 & B3 & B4 & B5).
        assert (c1 = c2) as -> by congruence. assert (arr = arr2) as -> by congruence. assert (e = e2) as -> by exact (asks_fun _ _ _ _ _ _ _ (S2 c Hc) (same_asks _ _ _ _ _ _ _ _ (S c Hc) A3) B3). split; congruence.
      - rewrite (NI c Hc), (NI' c Hc), (bin_data_dict _ _ _ _ _ _ _ c H Hc), (bin_data_dict _ _ _ _ _ _ _ c H' Hc). auto. }
    exists dict'. split; [|intros c; apply A]. rewrite H'. do 2 f_equal. apply frame_ext; [rewrite K'; exact N|congruence|intros c; apply A].
  Qed.
  (** the condition in terms of the frame: an interval column with fewer than two different values is dropped, its entry is not looked at *)
  Lemma prep_bins : forall df ic bins q bins' q' d out dict, NoDup (keys df) ->
    (forall c x, assoc c df = Some x -> In c ic -> (2 <= nunique x)%nat -> same_request bins q bins' q' c) ->
    (let dq := dq_check_nunique_values df ic d in bin_data npq (fst dq) (snd dq) bins q) = Ok (out, dict) ->
    exists dict', (let dq := dq_check_nunique_values df ic d in bin_data npq (fst dq) (snd dq) bins' q') = Ok (out, dict') /\ forall c, assoc c dict' = assoc c dict.
  Proof.
    intros df ic bins q bins' q' d out dict N S H. cbv zeta in *. destruct (C119_bin_data _ _ _ _ bins' q' _ _ H (nodup_dq _ _ _ N)) as (dict' & H' & DE); [|eauto].
    intros c Hc. apply mem_In in Hc. destruct (dq_form df ic d) as (_ & F2 & F3). destruct (mem c (keys df)) eqn:K; [|rewrite (proj2 (F2 c K)) in Hc; discriminate Hc].
    rewrite (F3 c K) in Hc. apply andb_true_iff in Hc. destruct Hc as [M D]. unfold dropped in D. rewrite M in D. destruct (assoc c df) as [x|] eqn:A; [|discriminate D]. apply (S c x A); [apply mem_In, M|]. apply negb_true_iff, Nat.ltb_ge in D. exact D.
  Qed.
End Bin.

Theorem C119_phik : forall add_up chi2_rho comp npq df ic bins q bins' q' noise d u o t, NoDup (keys df) ->
  (forall c x, assoc c df = Some x -> In c (intervals ic df) -> (2 <= nunique x)%nat -> same_request bins q bins' q' c) ->
  phik_matrix_64 add_up chi2_rho comp npq df ic bins q noise d u o = Ok t -> phik_matrix_64 add_up chi2_rho comp npq df ic bins' q' noise d u o = Ok t.
Proof.
  intros add_up chi2_rho comp npq df ic bins q bins' q' noise d u o t N S H. unfold phik_matrix_64 in *. fold (intervals ic df) in *.
  assert (P := fun out dict => prep_bins npq df (intervals ic df) bins q bins' q' d out dict N S). cbv zeta in P.
  destruct (dq_check_nunique_values df (intervals ic df) d) as [g l]. cbn [fst snd] in P. destruct (bin_data npq g l bins q) as [[out dict]|]; [|discriminate H].
  destruct (P out dict eq_refl) as (dict' & -> & _). exact H.
Qed.
Theorem C119_significance : forall percentile add_up add_mean flog fppf fsf fnsf ffit comp npq df ic s lam sims bins bins' d u o t, NoDup (keys df) ->
  (forall c x, assoc c df = Some x -> In c (intervals ic df) -> (2 <= nunique x)%nat -> same_request bins false bins' false c) ->
  signif_matrix_64 percentile add_up add_mean flog fppf fsf fnsf ffit comp npq df ic s lam sims bins d u o = Ok t ->
  signif_matrix_64 percentile add_up add_mean flog fppf fsf fnsf ffit comp npq df ic s lam sims bins' d u o = Ok t.
Proof.
  intros percentile add_up add_mean flog fppf fsf fnsf ffit comp npq df ic s lam sims bins bins' d u o t N S H. unfold signif_matrix_64 in *. fold (intervals ic df) in *.
  assert (P := fun out dict => prep_bins npq df (intervals ic df) bins false bins' false d out dict N S). cbv zeta in P.
  destruct (dq_check_nunique_values df (intervals ic df) d) as [g l]. cbn [fst snd] in P. destruct (bin_data npq g l bins false) as [[out dict]|]; [|discriminate H].
  destruct (P out dict eq_refl) as (dict' & -> & _). exact H.
Qed.
Theorem C119_outliers : forall fbetainc fgammaln fpsf fplogsf fppf flog fexpo pow2 fmt npq df ic nd bins q bins' q' combos d u o res dict, NoDup (keys df) ->
  (forall c x, assoc c df = Some x -> In c (intervals ic df) -> (2 <= nunique x)%nat -> same_request bins q bins' q' c) ->
  outlier_matrices_64 fbetainc fgammaln fpsf fplogsf fppf flog fexpo pow2 fmt npq df ic nd bins q combos d u o = Ok (res, dict) ->
  exists dict', outlier_matrices_64 fbetainc fgammaln fpsf fplogsf fppf flog fexpo pow2 fmt npq df ic nd bins' q' combos d u o = Ok (res, dict') /\ forall c, assoc c dict' = assoc c dict.
Proof.
  intros fbetainc fgammaln fpsf fplogsf fppf flog fexpo pow2 fmt npq df ic nd bins q bins' q' combos d u o res dict N S H. unfold outlier_matrices_64 in *. fold (intervals ic df) in *.
  assert (P := fun out dict => prep_bins npq df (intervals ic df) bins q bins' q' d out dict N S). cbv zeta in P.
  destruct (dq_check_nunique_values df (intervals ic df) d) as [g l]. cbn [fst snd] in P. destruct (bin_data npq g l bins q) as [[out dict0]|]; [|discriminate H].
  destruct (P out dict0 eq_refl) as (dict' & -> & DE). cbn [rbind fst snd] in *. exists dict'.
  assert (E : forall c, outlier_pair_64 fbetainc fgammaln fpsf fplogsf fppf flog fexpo pow2 fmt out dict' nd d u o c = outlier_pair_64 fbetainc fgammaln fpsf fplogsf fppf flog fexpo pow2 fmt out dict0 nd d u o c).
  { intros [a b]. unfold outlier_pair_64, two_columns. cbn [fst snd]. destruct (String.eqb a b); [destruct (assoc a out); reflexivity|]. destruct (assoc a out) as [x|]; [|reflexivity]. destruct (assoc b out) as [y|]; [|reflexivity]. cbn [rbind].
    rewrite (rebinned_dict fbetainc fgammaln fpsf fplogsf fppf flog fexpo pow2 fmt a x b y dict0 dict' nd d u o (DE a) (DE b)). reflexivity. }
  unfold outlier_pairs_64 in *. rewrite (mapM_ext_all _ _ _ _ _ E). destruct (mapM _ _) as [ms|]; [|discriminate H]. cbn [rbind] in *. injection H as <- <-. split; [reflexivity|exact DE].
Qed.
(** for instance: a number of bins for all columns is the dictionary with this number for each interval column, in any order and with any further entries *)
Theorem C119_number_is_dictionary : forall add_up chi2_rho comp npq df ic n entries q noise d u o t, NoDup (keys df) ->
  (forall c x, assoc c df = Some x -> In c (intervals ic df) -> (2 <= nunique x)%nat -> assoc c entries = Some (BNum n)) ->
  (phik_matrix_64 add_up chi2_rho comp npq df ic (BOne (BNum n)) q noise d u o = Ok t <-> phik_matrix_64 add_up chi2_rho comp npq df ic (BDict entries) q noise d u o = Ok t).
Proof.
  intros add_up chi2_rho comp npq df ic n entries q noise d u o t N S. split; apply C119_phik; try exact N; intros c x A I M; unfold same_request, spec_of; rewrite (S c x A I M); auto.
Qed.
(** with edges for all interval columns the quantile flag has no effect *)
Theorem C119_edges_quantile : forall add_up chi2_rho comp npq df ic bins q q' noise d u o t, NoDup (keys df) ->
  (forall c x, assoc c df = Some x -> In c (intervals ic df) -> (2 <= nunique x)%nat -> exists l, spec_of bins c = Some (BEdges l)) ->
  phik_matrix_64 add_up chi2_rho comp npq df ic bins q noise d u o = Ok t -> phik_matrix_64 add_up chi2_rho comp npq df ic bins q' noise d u o = Ok t.
Proof.
  intros add_up chi2_rho comp npq df ic bins q q' noise d u o t N S. apply C119_phik; [exact N|]. intros c x A I M. destruct (S c x A I M) as (l & E). unfold same_request. rewrite E. reflexivity.
Qed.
(** an entry missing for a surviving interval column is a ValueError, before anything is binned *)
Theorem C119_missing_entry : forall add_up chi2_rho comp npq df ic entries q noise d u o c x, assoc c df = Some x -> In c (intervals ic df) -> (2 <= nunique x)%nat -> assoc c entries = None ->
  phik_matrix_64 add_up chi2_rho comp npq df ic (BDict entries) q noise d u o = Raise ValueError.
Proof.
  intros add_up chi2_rho comp npq df ic entries q noise d u o c x A I M E. unfold phik_matrix_64. fold (intervals ic df). destruct (dq_form df (intervals ic df) d) as (_ & _ & F3).
  assert (K : mem c (keys df) = true) by (destruct (mem c (keys df)) eqn:K; [reflexivity|]; assert (assoc c df = None) by (apply assoc_None; exact (proj1 (mem_false _ _) K)); congruence).
  specialize (F3 c K). apply mem_In in I. rewrite I in F3. unfold dropped in F3. rewrite I, A in F3. apply Nat.ltb_ge in M. rewrite M in F3. destruct (dq_check_nunique_values df (intervals ic df) d) as [g l]. cbn [fst snd negb andb] in F3.
  rewrite (bin_data_missing_key npq g l entries q c (proj1 (mem_In _ _) F3) E). reflexivity.
Qed.
Example C119_hypotheses_met : NoDup (keys f117) /\
  (forall c x, assoc c f117 = Some x -> In c (intervals None f117) -> (2 <= nunique x)%nat -> same_request (BOne (BNum 2)) false (BDict [("z", BOther); ("b", BNum 2); ("a", BNum 2)]%string) false c)%Z /\
  is_ok (phik_matrix_64 in_turn square_rho true qs117 f117 None (BOne (BNum 2)) false false true true true) = true.
Proof.
  split; [repeat constructor; cbn; intuition discriminate|]. split; [|vm_compute; reflexivity]. intros c x _ H _. cbn in H. destruct H as [<-|[<-|[]]]; cbn; auto.
Qed.
Print Assumptions C119_phik. Print Assumptions C119_missing_entry.
