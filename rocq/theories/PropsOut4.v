(** C61: the dictionary of outlier matrices. *)
From Coq Require Import String Ascii ZArith List Bool Reals Lra Lia.
Import ListNotations.
From Verif Require Import F64 Base Cells BinModel SpecBin BinProofs BinDataProofs HistModel SpecHist HistProofs RSum StatsModel StatsProofs Num PhikModel ArrayModel SparkModel SpecSpark SparkProofs
  BetaModel SpecSig SigModel PairMatProofs OutModel SpecOut OutProofs PropsOut PropsOut2 PropsOut3.
Open Scope list_scope.

Lemma colon_key_inj : forall a b a' b', colon_free a -> colon_free b -> colon_free a' -> colon_free b' -> colon_key a b = colon_key a' b' -> (a, b) = (a', b').
Proof.
  intros a b a' b' Ha Hb Ha' Hb' E. apply (f_equal split_colon) in E. unfold colon_key in E. rewrite !split_app in E by assumption. rewrite !split_free in E by assumption. congruence.
Qed.

(** a dict comprehension: the last entry for a key wins *)
Definition last_value {B} (k : string) (l : list (string * B)) : option B := assoc k (rev l).
Lemma assoc_app : forall B k (l l' : list (string * B)), assoc k (l ++ l') = match assoc k l with Some b => Some b | None => assoc k l' end.
Proof. induction l as [|[k' b] l IH]; intros l'; [reflexivity|]. cbn [app assoc]. destruct (String.eqb k k'); [reflexivity|apply IH]. Qed.
Lemma fold_dict : forall B (l : list (string * B)) d k, assoc k (fold_left (fun d m => dict_set (fst m) (snd m) d) l d) = match last_value k l with Some b => Some b | None => assoc k d end.
Proof.
  induction l as [|[k' b] l IH]; intros d k; [reflexivity|]. cbn [fold_left fst snd]. rewrite IH. unfold last_value. cbn [rev]. rewrite assoc_app. destruct (assoc k (rev l)); [reflexivity|]. rewrite assoc_dict_set. cbn [assoc]. destruct (String.eqb k k'); reflexivity.
Qed.
Lemma keys_dict_set : forall B k (b : B) d, keys (dict_set k b d) = if mem k (keys d) then keys d else keys d ++ [k].
Proof.
  intros B k b d. unfold dict_set. destruct (assoc k d) as [v|] eqn:E.
  - assert (M : mem k (keys d) = true). { apply mem_In. destruct (in_dec string_dec k (keys d)) as [I|N]; [exact I|]. apply assoc_None in N. congruence. }
    rewrite M. apply keys_set_assoc.
  - apply assoc_None in E. rewrite (proj2 (mem_false _ _) E). unfold keys. rewrite map_app. reflexivity.
Qed.
Lemma fold_keys : forall B (l : list (string * B)) d, NoDup (keys d ++ keys l) -> keys (fold_left (fun d m => dict_set (fst m) (snd m) d) l d) = keys d ++ keys l.
Proof.
  induction l as [|[k b] l IH]; intros d ND; [cbn; rewrite app_nil_r; reflexivity|]. cbn [fold_left fst snd].
  assert (E : keys (dict_set k b d) = keys d ++ [k]).
  { rewrite keys_dict_set. destruct (mem k (keys d)) eqn:M; [|reflexivity]. exfalso. unfold mem in M. apply existsb_exists in M. destruct M as (x & Hx & M). apply String.eqb_eq in M. subst x.
    cbn [keys map fst] in ND. apply NoDup_remove_2 in ND. apply ND. apply in_or_app. left. exact Hx. }
  rewrite IH; rewrite E; rewrite <- app_assoc; [reflexivity|exact ND].
Qed.

Lemma nodup_map_inj : forall A B (f : A -> B) l, (forall a b, In a l -> In b l -> f a = f b -> a = b) -> NoDup l -> NoDup (map f l).
Proof.
  induction l as [|x l IH]; intros HI ND; [constructor|]. inversion ND as [|? ? NI ND']; subst. cbn [map]. constructor.
  - intros H. apply in_map_iff in H. destruct H as (y & E & Hy). apply HI in E; [subst; contradiction|right; exact Hy|left; reflexivity].
  - apply IH; [|exact ND']. intros a b Ha Hb. apply HI; right; assumption.
Qed.

Section Lib.
Variables (L : olib) (fmt : Z -> f64 * f64 -> string) (npq : list f64 -> Z -> list f64).

(** the outlier matrix of one pair of columns of a binned frame *)
Definition pair_matrix (f : frame) (dict : list (string * list (f64 * f64))) (CI : string) (nd : Z) (d u o : bool) (c : string * string) (m : oresult) : Prop :=
  exists x y, assoc (fst c) f = Some x /\ assoc (snd c) f = Some y /\ fst c <> snd c /\
    fst (outlier_significance_matrix_from_rebinned_df L fmt [(fst c, x); (snd c, y)] dict CI nd d u o) = Ok m.

Lemma two_columns_spec : forall f c f2, two_columns f c = Ok f2 -> exists x y, assoc (fst c) f = Some x /\ assoc (snd c) f = Some y /\ fst c <> snd c /\ f2 = [(fst c, x); (snd c, y)].
Proof.
  intros f c f2 H. unfold two_columns in H. destruct (String.eqb_spec (fst c) (snd c)) as [E|N].
  - destruct (assoc (fst c) f); discriminate.
  - destruct (assoc (fst c) f) as [x|]; [|discriminate]. destruct (assoc (snd c) f) as [y|]; [|discriminate]. injection H as <-. exists x, y. auto.
Qed.
Lemma matrices_spec : forall f dict CI nd combos d u o ms, outlier_significance_matrices_from_rebinned_df L fmt f dict CI nd combos d u o = Ok ms ->
  map fst ms = (match combos with [] => pairs (keys f) | _ => combos end) /\ forall e, In e ms -> pair_matrix f dict CI nd d u o (fst e) (snd e).
Proof.
  intros f dict CI nd combos d u o ms H. unfold outlier_significance_matrices_from_rebinned_df in H. set (cs := match combos with [] => _ | _ => _ end) in *. clearbody cs. revert ms H.
  induction cs as [|c cs IH]; intros ms H; cbn [mapM] in H.
  - injection H as <-. split; [reflexivity|intros e []].
  - destruct (two_columns f c) as [f2|] eqn:T; [|discriminate]. cbn [rbind] in H. destruct (fst (outlier_significance_matrix_from_rebinned_df L fmt f2 dict CI nd d u o)) as [m|] eqn:M; [|discriminate]. cbn [rbind] in H.
    destruct (mapM _ cs) as [l|] eqn:E; [|discriminate]. cbn [rbind] in H. injection H as <-. destruct (IH l eq_refl) as (A & B). cbn [map fst]. split.
    + rewrite A. destruct c; reflexivity.
    + intros e [<-|He]; [|apply B; exact He]. destruct (two_columns_spec _ _ _ T) as (x & y & X & Y & N & ->). cbn [fst snd]. exists x, y. cbn [fst snd]. auto.
Qed.

Lemma fold_keyed : forall (ms : list (string * string * oresult)) d, fold_left (fun d m => dict_set (colon_key (fst (fst m)) (snd (fst m))) (snd m) d) ms d =
  fold_left (fun d m => dict_set (fst m) (snd m) d) (map (fun m => (colon_key (fst (fst m)) (snd (fst m)), snd m)) ms) d.
Proof. induction ms as [|m ms IH]; intros d; [reflexivity|]. cbn [map fold_left fst snd]. apply IH. Qed.
Definition keyof (c : string * string) : string := colon_key (fst c) (snd c).
Lemma keys_keyed : forall (ms : list (string * string * oresult)), keys (map (fun m => (colon_key (fst (fst m)) (snd (fst m)), snd m)) ms) = map keyof (map fst ms).
Proof. intros ms. unfold keys. rewrite !map_map. reflexivity. Qed.

(** the pairs that are asked for *)
Definition requested (f : frame) (combos : list (string * string)) : list (string * string) := match combos with [] => pairs (keys f) | _ => combos end.

(** C61, first half: no ':' in the names: one entry for every requested pair, in order, holding the matrix of that pair *)
Theorem C61_no_collision : forall df ic CI nd bins q combos d u o res dict binned,
  outlier_significance_matrices L fmt npq df ic CI nd bins q combos d u o = Ok (res, dict) ->
  (let dq := dq_check_nunique_values df (match ic with Some l => l | None => guess_interval_cols df end) d in bin_data npq (fst dq) (snd dq) bins q) = Ok (binned, dict) ->
  (forall c, In c (requested binned combos) -> colon_free (fst c) /\ colon_free (snd c)) -> NoDup (requested binned combos) ->
  map fst res = map (fun c => (fst c ++ ":" ++ snd c)%string) (requested binned combos) /\
  forall c, In c (requested binned combos) -> exists m, pair_matrix binned dict CI nd d u o c m /\ assoc (fst c ++ ":" ++ snd c)%string res = Some m.
Proof.
  intros df ic CI nd bins q combos d u o res dict binned H HB CF ND. unfold outlier_significance_matrices in H.
  destruct (dq_check_nunique_values df _ d) as [df' ic']. cbn [fst snd] in HB. rewrite HB in H. cbn [rbind fst snd] in H.
  destruct (outlier_significance_matrices_from_rebinned_df L fmt binned dict CI nd combos d u o) as [ms|] eqn:HM; [|discriminate]. cbn [rbind] in H. injection H as <-.
  destruct (matrices_spec _ _ _ _ _ _ _ _ _ HM) as (A & B). fold (requested binned combos) in A. rewrite fold_keyed.
  assert (NK : NoDup (map keyof (requested binned combos))).
  { apply nodup_map_inj; [|exact ND]. intros c c' Hc Hc' E. destruct (CF c Hc), (CF c' Hc'). destruct c as [a b], c' as [a' b']. apply colon_key_inj; assumption. }
  assert (K : keys (fold_left (fun d m => dict_set (fst m) (snd m) d) (map (fun m => (colon_key (fst (fst m)) (snd (fst m)), snd m)) ms) []) = map keyof (requested binned combos)).
  { assert (E : keys (map (fun m => (colon_key (fst (fst m)) (snd (fst m)), snd m)) ms) = map keyof (requested binned combos)) by (rewrite keys_keyed, A; reflexivity). rewrite fold_keys; change (keys (@nil (string * oresult))) with (@nil string); cbn [app]; rewrite E; [reflexivity|exact NK]. }
  split; [exact K|]. intros c Hc. rewrite <- A in Hc. apply in_map_iff in Hc. destruct Hc as (e & <- & He). exists (snd e). split; [apply B; exact He|].
  rewrite fold_dict. unfold last_value. change (fst (fst e) ++ ":" ++ snd (fst e))%string with (keyof (fst e)). rewrite (assoc_NoDup _ _ (snd e)); [reflexivity| |].
  - unfold keys. rewrite map_rev. apply NoDup_rev. change (map fst ?l) with (keys l). rewrite keys_keyed, A. exact NK.
  - apply in_rev. rewrite rev_involutive. apply in_map_iff. exists e. split; [reflexivity|exact He].
Qed.

(** whatever the names: an entry is the matrix of the last requested pair with that key *)
Theorem C61_last_pair_wins : forall df ic CI nd bins q combos d u o res dict binned before c after,
  outlier_significance_matrices L fmt npq df ic CI nd bins q combos d u o = Ok (res, dict) ->
  (let dq := dq_check_nunique_values df (match ic with Some l => l | None => guess_interval_cols df end) d in bin_data npq (fst dq) (snd dq) bins q) = Ok (binned, dict) ->
  requested binned combos = before ++ c :: after -> (forall c', In c' after -> (fst c' ++ ":" ++ snd c')%string <> (fst c ++ ":" ++ snd c)%string) ->
  exists m, pair_matrix binned dict CI nd d u o c m /\ assoc (fst c ++ ":" ++ snd c)%string res = Some m.
Proof.
  intros df ic CI nd bins q combos d u o res dict binned before c after H HB HR HA. unfold outlier_significance_matrices in H.
  destruct (dq_check_nunique_values df _ d) as [df' ic']. cbn [fst snd] in HB. rewrite HB in H. cbn [rbind fst snd] in H.
  destruct (outlier_significance_matrices_from_rebinned_df L fmt binned dict CI nd combos d u o) as [ms|] eqn:HM; [|discriminate]. cbn [rbind] in H. injection H as <-.
  destruct (matrices_spec _ _ _ _ _ _ _ _ _ HM) as (A & B). fold (requested binned combos) in A. rewrite fold_keyed. rewrite HR in A.
  symmetry in A. assert (X : exists m1 m m2, ms = m1 ++ m :: m2 /\ fst m = c /\ map fst m2 = after).
  { clear - A. revert ms A. induction before as [|b before IH]; intros [|m ms] A; try discriminate; cbn [app map] in A; injection A as E A.
    - exists [], m, ms. repeat split; congruence.
    - destruct (IH ms A) as (m1 & m' & m2 & -> & F & G). exists (m :: m1), m', m2. repeat split; assumption. }
  destruct X as (m1 & m & m2 & -> & Fm & Fa). exists (snd m). split; [rewrite <- Fm; apply B, in_or_app; right; left; reflexivity|].
  rewrite fold_dict. unfold last_value. rewrite map_app, rev_app_distr. cbn [map rev]. rewrite <- app_assoc, assoc_app. cbn [app].
  assert (N : assoc (fst c ++ ":" ++ snd c)%string (rev (map (fun m => (colon_key (fst (fst m)) (snd (fst m)), snd m)) m2)) = None).
  { apply assoc_None. unfold keys. rewrite map_rev. intros HI. apply in_rev in HI. change (map fst ?l) with (keys l) in HI. rewrite keys_keyed, Fa in HI. apply in_map_iff in HI. destruct HI as (c' & E & Hc'). exact (HA c' Hc' E). }
  rewrite N. cbn [assoc]. rewrite Fm. change (colon_key (fst c) (snd c)) with (fst c ++ ":" ++ snd c)%string. rewrite String.eqb_refl. reflexivity.
Qed.

(** C61, second half: two different pairs with the same key: fewer entries than pairs, and the first pair's matrix is not in the result.
    [clash] is a frame on which the call succeeds. *)
Definition three (s : string) (k : nat) : string * col := (s, mkCol false (map (fun i => if Nat.eqb (i / 2) k then CStr (if Nat.even i then "p" else "q") else CNaN) (seq 0 8))).
Definition clash : frame := [three "a" 0; three "b:c" 1; three "a:b" 2; three "c" 3].
Theorem C61_collision : forall CI nd, exists res, outlier_significance_matrices L fmt npq clash (Some []) CI nd (BOne (BNum 10)) false [] true true true = Ok (res, []) /\
  length (pairs (keys clash)) = 6%nat /\ length res = 5%nat /\ In ("a", "b:c")%string (pairs (keys clash)) /\ In ("a:b", "c")%string (pairs (keys clash)) /\
  ("a" ++ ":" ++ "b:c" = "a:b" ++ ":" ++ "c")%string.
Proof. intros CI nd. eexists. split; [vm_compute; reflexivity|]. vm_compute. tauto. Qed.
(** any frame with these four columns, whatever it holds *)
Theorem C61_collision_general : forall df ic CI nd bins q d u o res dict, 
  keys (fst (dq_check_nunique_values df (match ic with Some l => l | None => guess_interval_cols df end) d)) = ["a"; "b:c"; "a:b"; "c"]%string ->
  outlier_significance_matrices L fmt npq df ic CI nd bins q [] d u o = Ok (res, dict) -> length res = 5%nat.
Proof.
  intros df ic CI nd bins q d u o res dict HK H. unfold outlier_significance_matrices in H. destruct (dq_check_nunique_values df _ d) as [df' ic']. cbn [fst] in HK.
  destruct (bin_data npq df' ic' bins q) as [[binned dict']|] eqn:HB; [|discriminate]. cbn [rbind fst snd] in H.
  destruct (bin_data_spec npq df' ic' bins q _ _ HB) as (K & _).
  destruct (outlier_significance_matrices_from_rebinned_df L fmt binned dict' CI nd [] d u o) as [ms|] eqn:HM; [|discriminate]. cbn [rbind] in H. injection H as <- <-.
  destruct (matrices_spec _ _ _ _ _ _ _ _ _ HM) as (A & _). rewrite K, HK in A. cbn [pairs map app] in A.
  repeat (destruct ms as [|[? ?] ms]; [discriminate|]; cbn [map fst] in A; injection A as -> A). destruct ms; [|discriminate]. reflexivity.
Qed.
(** the same number of entries as pairs when the names have no ':' *)
Lemma pairs_In : forall A (l : list A) a b, In (a, b) (pairs l) -> In a l /\ In b l.
Proof.
  induction l as [|x l IH]; intros a b H; [destruct H|]. cbn [pairs] in H. apply in_app_or in H. destruct H as [H|H].
  - apply in_map_iff in H. destruct H as (y & E & Hy). injection E as -> ->. split; [left; reflexivity|right; exact Hy].
  - destruct (IH a b H). split; right; assumption.
Qed.
Lemma pairs_NoDup : forall A (l : list A), NoDup l -> NoDup (pairs l).
Proof.
  induction l as [|x l IH]; intros H; [constructor|]. inversion H as [|? ? NI ND]; subst. cbn [pairs]. apply BivProofs.nodup_app.
  - apply nodup_map_inj; [|exact ND]. intros a b _ _ E. congruence.
  - apply IH. exact ND.
  - intros p H1 H2. apply in_map_iff in H1. destruct H1 as (y & <- & _). apply pairs_In in H2. tauto.
Qed.
Theorem C61_all_pairs : forall df ic CI nd bins q d u o res dict, 
  let cols := keys (fst (dq_check_nunique_values df (match ic with Some l => l | None => guess_interval_cols df end) d)) in
  NoDup cols -> (forall c, In c cols -> colon_free c) ->
  outlier_significance_matrices L fmt npq df ic CI nd bins q [] d u o = Ok (res, dict) ->
  NoDup (map fst res) /\ forall a b, In (a, b) (pairs cols) -> In (a ++ ":" ++ b)%string (map fst res).
Proof.
  intros df ic CI nd bins q d u o res dict cols ND CF H. pose proof H as H'. unfold outlier_significance_matrices in H. destruct (dq_check_nunique_values df _ d) as [df' ic'] eqn:DQ. subst cols. cbn [fst] in *.
  destruct (bin_data npq df' ic' bins q) as [[binned dict']|] eqn:HB; [|discriminate]. cbn [rbind fst snd] in H. destruct (bin_data_spec npq df' ic' bins q _ _ HB) as (K & _).
  assert (dict' = dict) as ->. { destruct (outlier_significance_matrices_from_rebinned_df _ _ _ _ _ _ _ _ _ _); [|discriminate]. cbn [rbind] in H. injection H as _ ->. reflexivity. }
  assert (CF2 : forall c, In c (pairs (keys df')) -> colon_free (fst c) /\ colon_free (snd c)) by (intros [a b] Hc; apply pairs_In in Hc; split; apply CF; tauto).
  destruct (C61_no_collision df ic CI nd bins q [] d u o res dict binned H') as (A & _).
  - rewrite DQ. exact HB.
  - cbn [requested]. rewrite K. exact CF2.
  - cbn [requested]. rewrite K. apply pairs_NoDup. exact ND.
  - cbn [requested] in A. rewrite K in A. rewrite A. split.
    + apply nodup_map_inj; [|apply pairs_NoDup; exact ND]. intros c c' Hc Hc' E. destruct (CF2 c Hc), (CF2 c' Hc'). destruct c, c'. apply colon_key_inj; assumption.
    + intros a b Hp. apply in_map_iff. exists (a, b). split; [reflexivity|exact Hp].
Qed.
(** a requested pair with an unknown (for instance dropped) column: KeyError *)
Theorem C62_unknown_column : forall f dict CI nd c combos d u o, assoc (fst c) f = None \/ assoc (snd c) f = None ->
  outlier_significance_matrices_from_rebinned_df L fmt f dict CI nd (c :: combos) d u o = Raise KeyError.
Proof.
  intros f dict CI nd c combos d u o H. unfold outlier_significance_matrices_from_rebinned_df. cbn [mapM]. unfold two_columns. destruct (String.eqb_spec (fst c) (snd c)) as [E|N].
  - rewrite E in *. destruct H as [H|H]; rewrite H; reflexivity.
  - destruct H as [H|H]; rewrite H; destruct (assoc (fst c) f); reflexivity.
Qed.
End Lib.
