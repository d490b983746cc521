(** C110: column labels that are numbers, and repeated labels, in the outlier functions. *)
From Coq Require Import String ZArith List Bool Reals Lia.
From Verif Require Import F64 Base Cells BinModel HistModel RSum StatsModel BivModel Num PhikModel SimModel SigModel OutModel LabelModel LabelSigModel LabelProofs SpecLabel SpecHist SpecPhik SpecLabelSig HistProofs OverviewProofs BinDataProofs PhikInvProofs PhikMatProofs PropsHist PropsLabel PropsLabelSig.
Import ListNotations.
Open Scope list_scope.

Section Rename.
Variable s : string -> label.
Hypothesis inj : forall a b, s a = s b -> a = b.
Lemma r_dict_set : forall (B : Type) a (b : B) (l : list (string * B)), ldict_set (s a) b (relabel s l) = relabel s (dict_set a b l).
Proof.
  intros B a b l. unfold ldict_set, dict_set. rewrite r_labels, (r_mem s inj), (r_set s inj). assert (X : mem a (keys l) = match assoc a l with Some _ => true | None => false end).
  { unfold mem. induction l as [|[k v] l IH]; [reflexivity|]. cbn [keys map fst existsb assoc]. destruct (String.eqb a k); [reflexivity|exact IH]. }
  rewrite X. destruct (assoc a l); [reflexivity|]. unfold relabel. rewrite map_app. reflexivity.
Qed.
Definition relabel2 (r : frame * list (string * list (f64 * f64))) : lframe * list (label * list (f64 * f64)) := (relabel s (fst r), relabel s (snd r)).
Lemma r_bin_cols_d : forall npq data cols bins q xb acc dict,
  bin_cols_ld npq (relabel s data) (map s cols) (relabel_bins s bins) q xb (relabel s acc) (relabel s dict) = rmap relabel2 (bin_cols npq data cols bins q xb acc dict).
Proof.
  intros npq data cols bins q. induction cols as [|c cols IH]; intros xb acc dict; [reflexivity|]. cbn [map bin_cols_ld bin_cols]. rewrite (r_assoc s inj).
  destruct (assoc c data) as [column|]; [|reflexivity]. destruct (mapM to_float (c_cells column)) as [arr|e]; [|reflexivity]. cbn [rbind].
  assert (X : forall xb', match xb' with None => Raise UnboundLocalError | Some edges => let (b, ls) := bin_array arr edges in bin_cols_ld npq (relabel s data) (map s cols) (relabel_bins s bins) q xb' (lset (s c) (mkCol false b) (relabel s acc)) (ldict_set (s c) ls (relabel s dict)) end =
     rmap relabel2 (match xb' with None => Raise UnboundLocalError | Some edges => let (b, ls) := bin_array arr edges in bin_cols npq data cols bins q xb' (set_assoc c (mkCol false b) acc) (dict_set c ls dict) end)).
  { intros [edges|]; [|reflexivity]. destruct (bin_array arr edges) as [b ls]. rewrite (r_set s inj), r_dict_set. apply IH. }
  destruct bins as [sp|dd]; cbn [relabel_bins].
  - destruct sp as [n|l|]; [|exact (X xb)|exact (X xb)]. destruct (bin_edges npq arr n q) as [ee|]; [|reflexivity]. cbn [rmap rbind]. exact (X (Some ee)).
  - rewrite (r_assoc s inj). destruct (assoc c dd) as [[n|l|]|]; [|exact (X (Some l))|exact (X xb)|reflexivity]. destruct (bin_edges npq arr n q) as [ee|]; [|reflexivity]. cbn [rmap rbind]. exact (X (Some ee)).
Qed.
(** bin_data with retbins=True: binning does not care about labels *)
Theorem C110_bin_data : forall npq data cols bins q,
  bin_data_ld npq (relabel s data) (map s cols) (relabel_bins s bins) q = rmap relabel2 (bin_data npq data cols bins q).
Proof.
  intros npq data cols bins q. destruct bins as [sp|dd].
  - destruct sp as [n|l|]; cbn [relabel_bins bin_data_ld bin_data]; apply (r_bin_cols_d npq data cols (BOne _) q _ data []).
  - cbn [relabel_bins bin_data_ld bin_data]. rewrite r_labels.
    assert (X : forallb (fun c => lmem c (map s (keys dd))) (map s cols) = forallb (fun c => mem c (keys dd)) cols).
    { induction cols as [|c l IH]; [reflexivity|]. cbn [map forallb]. rewrite (r_mem s inj), IH. reflexivity. }
    rewrite X. destruct (forallb _ cols); [|reflexivity]. apply (r_bin_cols_d npq data cols (BDict dd) q None data []).
Qed.

Variable OL : olib.
Variable fmt : Z -> f64 * f64 -> string.
Notation rebinned := (outlier_significance_matrix_from_rebinned_df OL fmt).
Notation rebinned_l := (outlier_rebinned_l OL fmt).
Lemma r_axis : forall nd dict c cells axis, relabel_axis_l fmt nd (relabel s dict) (s c) cells axis = OutModel.relabel fmt nd dict c cells axis.
Proof. intros. unfold relabel_axis_l, OutModel.relabel. rewrite (r_assoc s inj). reflexivity. Qed.
(** a pair of columns: the same matrix, unless there is no proper table and a number among the names: then ValueError, where string names give NaN *)
Theorem C110_pair : forall a x b y dict CI nd d u o, a <> b ->
  let new := rebinned_l (relabel s [(a, x); (b, y)]) (relabel s dict) CI nd d u o in
  let old := fst (rebinned [(a, x); (b, y)] dict CI nd d u o) in
  (too_few d u o x y /\ (is_number (s a) \/ is_number (s b)) -> new = Raise ValueError /\ old = Ok ONaN) /\
  (~ (too_few d u o x y /\ (is_number (s a) \/ is_number (s b))) -> new = old).
Proof.
  intros a x b y dict CI nd d u o AB new old. unfold new, old, outlier_rebinned_l, outlier_significance_matrix_from_rebinned_df.
  cbn [relabel map lclean fst snd hist2d_from_rebinned_df clean c_num c_cells rbind]. rewrite (s_eqb s inj), (proj2 (String.eqb_neq _ _) AB).
  rewrite <- (degen_too_few d u o x y). fold (degen (map (clean1 d u o) (c_cells x)) (map (clean1 d u o) (c_cells y))).
  destruct (degen (map (clean1 d u o) (c_cells x)) (map (clean1 d u o) (c_cells y))).
  - destruct (is_number_dec (s a)) as [(z & E)|(t & E)].
    { split; [intros _; rewrite E; split; reflexivity|]. intros N. exfalso. apply N. split; [reflexivity|left; exists z; exact E]. }
    destruct (is_number_dec (s b)) as [(z & E')|(t' & E')].
    { split; [intros _; rewrite E, E'; split; reflexivity|]. intros N. exfalso. apply N. split; [reflexivity|right; exists z; exact E']. }
    split; [intros (_ & [(z & X)|(z & X)]); congruence|]. intros _. rewrite E, E'. reflexivity.
  - split; [intros (X & _); discriminate|]. intros _. change (map (fun p => (s (fst p), snd p)) dict) with (relabel s dict). rewrite !r_axis. reflexivity.
Qed.

Variable npq : list f64 -> Z -> list f64.
(** outlier_significance_matrix *)
Theorem C110_matrix : forall df interval_cols CI nd bins q d u o, NoDup (keys df) -> length df = 2%nat ->
  let ic := match interval_cols with Some l => l | None => guess_interval_cols df end in
  let new := outlier_matrix_l npq OL fmt (relabel s df) (option_map (map s) interval_cols) CI nd (relabel_bins s bins) q d u o in
  let old := outlier_significance_matrix OL fmt npq df interval_cols CI nd bins q d u o in
  (mixed (map s ic) (relabel s df) -> new = Raise TypeError) /\
  (~ mixed (map s ic) (relabel s df) -> numbered_trouble (map s ic) d (relabel s df) -> new = Raise ValueError) /\
  (~ mixed (map s ic) (relabel s df) -> ~ numbered_trouble (map s ic) d (relabel s df) ->
     (exists binned dict a x b y, bin_data npq (fst (dq_check_nunique_values df ic d)) (snd (dq_check_nunique_values df ic d)) bins q = Ok (binned, dict) /\ binned = [(a, x); (b, y)] /\
        too_few d u o x y /\ (is_number (s a) \/ is_number (s b)) /\ old = Ok (ONaN, dict) /\ new = Raise ValueError) \/
     new = rmap (fun r => (fst r, relabel s (snd r))) old).
Proof.
  intros df interval_cols CI nd bins q d u o ND L2 ic new old. unfold new, outlier_matrix_l. rewrite guess_rename. fold ic. pose proof (check_rename s df ic d inj ND) as C.
  assert (L : length (relabel s df) = 2%nat) by (unfold relabel; rewrite map_length; exact L2). rewrite L. cbn [Nat.eqb negb].
  destruct (dq_check_l (relabel s df) (map s ic) d) as [[[g ic'] w]|e].
  2:{ cbn [rbind]. destruct e; try contradiction; (split; [intros M; try reflexivity; tauto|split; intros M T; try reflexivity; tauto]). }
  destruct C as (M & T & -> & ->). split; [contradiction|]. split; [contradiction|]. intros _ _. cbn [rbind fst snd]. rewrite C110_bin_data. unfold old, outlier_significance_matrix. rewrite L2. cbn [Nat.eqb negb]. fold ic.
  pose proof (dq_keys df ic d ND) as NK. destruct (dq_check_nunique_values df ic d) as [cl icc]. cbn [fst snd] in *. destruct (bin_data npq cl icc bins q) as [[bf dict]|e] eqn:EB; [|right; reflexivity].
  cbn [rmap rbind relabel2 fst snd]. assert (NB : NoDup (keys bf)) by (pose proof (bin_data_spec _ _ _ _ _ _ _ EB) as (K & _); rewrite K; exact NK).
  destruct bf as [|[a x] [|[b y] [|p bf]]]; [right; reflexivity|right; reflexivity| |right; reflexivity].
  assert (AB : a <> b) by (intros ->; inversion NB as [|? ? N1 N2]; apply N1; left; reflexivity).
  destruct (C110_pair a x b y dict CI nd d u o AB) as [A B]. cbv zeta in A, B.
  destruct (degen (map (clean1 d u o) (c_cells x)) (map (clean1 d u o) (c_cells y))) eqn:DG.
  - destruct (is_number_dec (s a)) as [NU|(t & E)]; [|destruct (is_number_dec (s b)) as [NU|(t' & E')]].
    3:{ right. rewrite B by (intros (_ & [(z & X)|(z & X)]); congruence). destruct (fst (rebinned _ _ _ _ _ _ _)); reflexivity. }
    all: left; exists [(a, x); (b, y)], dict, a, x, b, y; assert (P : too_few d u o x y) by (apply degen_too_few; exact DG); assert (Q : is_number (s a) \/ is_number (s b)) by (first [left; exact NU|right; exact NU]); destruct (A (conj P Q)) as [A1 A2]; rewrite A1, A2; split; [reflexivity|]; split; [reflexivity|]; split; [exact P|]; split; [exact Q|]; split; reflexivity.
  - right. rewrite B by (intros (X & _); apply degen_too_few in X; congruence). destruct (fst (rebinned _ _ _ _ _ _ _)); reflexivity.
Qed.

(** outlier_significance_matrices_from_rebinned_df, any list of pairs *)
Definition wanted (f : frame) (combinations : list (string * string)) : list (string * string) := match combinations with [] => pairs (keys f) | _ => combinations end.
Definition unwarnable_pair (d u o : bool) (f : frame) (c : string * string) : Prop :=
  exists x y, assoc (fst c) f = Some x /\ assoc (snd c) f = Some y /\ fst c <> snd c /\ too_few d u o x y /\ (is_number (s (fst c)) \/ is_number (s (snd c))).
Definition one (f : frame) dict CI nd d u o (c : string * string) : res (string * string * oresult) :=
  let* f2 := two_columns f c in let* m := fst (rebinned f2 dict CI nd d u o) in Ok (fst c, snd c, m).
Definition one_l (f : lframe) dict CI nd d u o (c : label * label) : res (label * label * oresult) :=
  let* f2 := two_columns_l f c in let* m := rebinned_l f2 dict CI nd d u o in Ok (fst c, snd c, m).
Definition rn (r : string * string * oresult) : label * label * oresult := (s (fst (fst r)), s (snd (fst r)), snd r).
Lemma r_filter : forall (B : Type) a (f : list (string * B)), NoDup (keys f) -> filter (fun p => label_eqb (s a) (fst p)) (relabel s f) = match assoc a f with Some x => [(s a, x)] | None => [] end.
Proof.
  intros B a f ND. destruct (assoc a f) as [x|] eqn:E.
  - apply filter_unique; [rewrite r_labels; apply r_nodup; assumption|]. apply in_map_iff. exists (a, x). split; [reflexivity|]. clear - E. induction f as [|[k v] f IH]; [discriminate|]. cbn [assoc] in E. destruct (String.eqb a k) eqn:K; [apply String.eqb_eq in K; subst k; injection E as ->; left; reflexivity|right; exact (IH E)].
  - apply filter_none. rewrite r_labels, (r_in s inj). clear - E. induction f as [|[k v] f IH]; [intros []|]. cbn [assoc] in E. destruct (String.eqb a k) eqn:K; [discriminate|]. apply String.eqb_neq in K. intros [H|H]; [cbn [fst] in H; congruence|exact (IH E H)].
Qed.
Lemma one_rename : forall f dict CI nd d u o c, NoDup (keys f) ->
  (unwarnable_pair d u o f c /\ one_l (relabel s f) (relabel s dict) CI nd d u o (s (fst c), s (snd c)) = Raise ValueError) \/
  (~ unwarnable_pair d u o f c /\ one_l (relabel s f) (relabel s dict) CI nd d u o (s (fst c), s (snd c)) = rmap rn (one f dict CI nd d u o c)).
Proof.
  intros f dict CI nd d u o [a b] ND. unfold unwarnable_pair, one_l, one, two_columns_l, two_columns. cbn [fst snd]. rewrite !r_filter by exact ND.
  destruct (String.eqb_spec a b) as [<- |AB].
  { right. split; [intros (x & y & _ & _ & N & _); congruence|]. destruct (assoc a f) as [x|]; [|reflexivity]. cbn [rbind app]. unfold outlier_rebinned_l. cbn [lclean map fst snd]. rewrite label_eqb_refl. reflexivity. }
  destruct (assoc a f) as [x|] eqn:EX; [|right; split; [intros (x & y & X & _); discriminate|reflexivity]]. destruct (assoc b f) as [y|] eqn:EY; [|right; split; [intros (x' & y & _ & Y & _); discriminate|reflexivity]].
  cbn [rbind app]. change [(s a, x); (s b, y)] with (relabel s [(a, x); (b, y)]). destruct (C110_pair a x b y dict CI nd d u o AB) as [A B]. cbv zeta in A, B.
  assert (DEC : (too_few d u o x y /\ (is_number (s a) \/ is_number (s b))) \/ ~ (too_few d u o x y /\ (is_number (s a) \/ is_number (s b)))).
  { rewrite <- degen_too_few. destruct (degen _ _); [|right; intros (X & _); discriminate]. destruct (is_number_dec (s a)) as [N|(t & E)]; [left; tauto|]. destruct (is_number_dec (s b)) as [N|(t' & E')]; [left; tauto|]. right. intros (_ & [(z & X)|(z & X)]); congruence. }
  destruct DEC as [D|D].
  - left. destruct (A D) as [-> _]. split; [|reflexivity]. exists x, y. tauto.
  - right. rewrite (B D). split; [|destruct (fst (rebinned _ _ _ _ _ _ _)); reflexivity]. intros (x' & y' & X & Y & _ & T). injection X as <-. injection Y as <-. exact (D T).
Qed.
Theorem C110_matrices_rebinned : forall f dict CI nd combinations d u o, NoDup (keys f) ->
  let new := outlier_matrices_rebinned_l OL fmt (relabel s f) (relabel s dict) CI nd (map (fun c => (s (fst c), s (snd c))) combinations) d u o in
  let old := outlier_significance_matrices_from_rebinned_df OL fmt f dict CI nd combinations d u o in
  ((forall c, In c (wanted f combinations) -> ~ unwarnable_pair d u o f c) -> new = rmap (map rn) old) /\
  ((exists c, In c (wanted f combinations) /\ unwarnable_pair d u o f c) -> new = Raise ValueError \/ exists e, old = Raise e /\ new = Raise e).
Proof.
  intros f dict CI nd combinations d u o ND new old.
  assert (W : match map (fun c => (s (fst c), s (snd c))) combinations with [] => pairs (labels (relabel s f)) | _ => map (fun c => (s (fst c), s (snd c))) combinations end = map (fun c => (s (fst c), s (snd c))) (wanted f combinations)).
  { unfold wanted. destruct combinations as [|c cs]; [|reflexivity]. rewrite r_labels. cbn [map]. generalize (keys f) as l. induction l as [|a l IH]; [reflexivity|]. cbn [map pairs]. rewrite map_app, IH, !map_map. reflexivity. }
  assert (EN : new = mapM (one_l (relabel s f) (relabel s dict) CI nd d u o) (map (fun c => (s (fst c), s (snd c))) (wanted f combinations))).
  { unfold new, outlier_matrices_rebinned_l. rewrite W. reflexivity. }
  assert (EO : old = mapM (one f dict CI nd d u o) (wanted f combinations)) by reflexivity. rewrite EN, EO. clear new old W EN EO. split.
  - intros H. apply mapM_map. intros c I. destruct (one_rename f dict CI nd d u o c ND) as [(X & _)|(_ & X)]; [exfalso; exact (H c I X)|exact X].
  - generalize (wanted f combinations) as l. induction l as [|c l IH]; intros (b & Hb & B); [destruct Hb|]. cbn [map mapM]. destruct (one_rename f dict CI nd d u o c ND) as [(_ & ->)|(N & ->)]; [left; reflexivity|].
    destruct (one f dict CI nd d u o c) as [v|e]; [|right; exists e; split; reflexivity]. cbn [rmap rbind]. destruct IH as [-> |(e & -> & ->)]; [destruct Hb as [<- |Hb]; [contradiction|exists b; split; assumption]|left; reflexivity|right; exists e; split; reflexivity].
Qed.
End Rename.

Section Matrices.
Variable OL : olib.
Variable fmt : Z -> f64 * f64 -> string.
Variable npq : list f64 -> Z -> list f64.
(** outlier_significance_matrices joins the names by ":"; numbers cannot be joined: a result only for string names *)
Lemma join_ok : forall c0 c1 k, join_l c0 c1 = Ok k -> ~ is_number c0 /\ ~ is_number c1.
Proof. intros [z|a] [z'|b] k H; try discriminate. split; intros (z & E); discriminate. Qed.
Lemma ms_named : forall f dict CI nd d u o cs ms, mapM (fun c => let* f2 := two_columns_l f c in let* m := outlier_rebinned_l OL fmt f2 dict CI nd d u o in Ok (fst c, snd c, m)) cs = Ok ms -> map fst ms = cs.
Proof.
  intros f dict CI nd d u o cs. induction cs as [|c cs IH]; intros ms H; [injection H as <-; reflexivity|]. cbn [mapM] in H. destruct (two_columns_l f c) as [f2|]; [|discriminate]. cbn [rbind] in H.
  destruct (outlier_rebinned_l OL fmt f2 dict CI nd d u o) as [m|]; [|discriminate]. cbn [rbind] in H. destruct (mapM _ cs) as [ms'|] eqn:E; [|discriminate]. cbn [rbind] in H. injection H as <-. cbn [map fst snd]. rewrite (IH ms' eq_refl), <- surjective_pairing. reflexivity.
Qed.
Lemma join_all : forall (ms : list (label * label * oresult)),
  ((forall m, In m ms -> ~ is_number (fst (fst m)) /\ ~ is_number (snd (fst m))) /\ exists kv, mapM (fun m => let* k := join_l (fst (fst m)) (snd (fst m)) in Ok (k, snd m)) ms = Ok kv) \/
  ((exists m, In m ms /\ (is_number (fst (fst m)) \/ is_number (snd (fst m)))) /\ mapM (fun m => let* k := join_l (fst (fst m)) (snd (fst m)) in Ok (k, snd m)) ms = Raise TypeError).
Proof.
  induction ms as [|[[c0 c1] m] ms IH]; [left; split; [intros m []|exists []; reflexivity]|]. cbn [mapM fst snd]. destruct (is_number_dec c0) as [NU|(a & ->)].
  { right. split; [exists (c0, c1, m); split; [left; reflexivity|left; exact NU]|]. destruct NU as (z & ->). reflexivity. }
  destruct (is_number_dec c1) as [NU|(b & ->)].
  { right. split; [exists (LStr a, c1, m); split; [left; reflexivity|right; exact NU]|]. destruct NU as (z & ->). reflexivity. }
  cbn [join_l rbind]. destruct IH as [(A & kv & ->)|((m' & I & X) & ->)].
  - left. split; [|eexists; reflexivity]. intros m' [<- |I]; [split; intros (z & E); discriminate|exact (A m' I)].
  - right. split; [exists m'; split; [right; exact I|exact X]|reflexivity].
Qed.
Theorem C110_matrices : forall f interval_cols CI nd bins q combinations d u o,
  let ic := match interval_cols with Some l => l | None => guess_l f end in
  let new := outlier_matrices_l npq OL fmt f interval_cols CI nd bins q combinations d u o in
  match dq_check_l f ic d with
  | Raise e => new = Raise e
  | Ok (g, ic', _) =>
      match bin_data_ld npq g ic' bins q with
      | Raise e => new = Raise e
      | Ok (binned, dict) =>
          let wanted := match combinations with [] => pairs (labels binned) | _ => combinations end in
          match outlier_matrices_rebinned_l OL fmt binned dict CI nd combinations d u o with
          | Raise e => new = Raise e
          | Ok _ => ((exists c, In c wanted /\ (is_number (fst c) \/ is_number (snd c))) /\ new = Raise TypeError) \/
                    ((forall c, In c wanted -> ~ is_number (fst c) /\ ~ is_number (snd c)) /\ exists r, new = Ok (r, dict))
          end
      end
  end.
Proof.
  intros f interval_cols CI nd bins q combinations d u o ic new. unfold new, outlier_matrices_l. fold ic. destruct (dq_check_l f ic d) as [[[g ic'] w]|e]; [|reflexivity]. cbn [rbind fst snd].
  destruct (bin_data_ld npq g ic' bins q) as [[binned dict]|e]; [|reflexivity]. cbn [rbind fst snd]. destruct (outlier_matrices_rebinned_l OL fmt binned dict CI nd combinations d u o) as [ms|e] eqn:EM; [|reflexivity]. cbn [rbind].
  unfold outlier_matrices_rebinned_l in EM. apply ms_named in EM. rewrite <- EM. destruct (join_all ms) as [(A & kv & ->)|((m & I & X) & ->)]; cbn [rbind].
  - right. split; [|eexists; reflexivity]. intros c I. apply in_map_iff in I. destruct I as (m & <- & I). exact (A m I).
  - left. split; [|reflexivity]. exists (fst m). split; [apply in_map; exact I|exact X].
Qed.
(** so no frame with a number among at least two surviving column names gets a result *)
Lemma in_pairs : forall (A : Type) (l : list A) a, In a l -> (2 <= length l)%nat -> exists p, In p (pairs l) /\ (fst p = a \/ snd p = a).
Proof.
  intros A l a H L. destruct l as [|x [|y l]]; [destruct H|cbn in L; lia|]. destruct H as [-> |H]; [exists (a, y); split; [left; reflexivity|left; reflexivity]|].
  exists (x, a). split; [|right; reflexivity]. cbn [pairs]. apply in_or_app. left. apply in_map. exact H.
Qed.
Lemma lset_labels : forall (B : Type) k (b : B) l, labels (lset k b l) = labels l.
Proof. intros B k b l. unfold labels. induction l as [|[k' b'] l IH]; [reflexivity|]. cbn [lset]. destruct (label_eqb k k'); cbn [map fst]; [reflexivity|]. rewrite IH. reflexivity. Qed.
Lemma bin_labels : forall data cols bins q xb acc dict r, bin_cols_ld npq data cols bins q xb acc dict = Ok r -> labels (fst r) = labels acc.
Proof.
  intros data cols bins q. induction cols as [|c cols IH]; intros xb acc dict r H; [cbn [bin_cols_ld] in H; injection H as <-; reflexivity|]. cbn [bin_cols_ld] in H.
  destruct (lassoc c data) as [k|]; [|discriminate]. destruct (mapM to_float (c_cells k)) as [arr|]; [|discriminate]. cbn [rbind] in H.
  match type of H with context [rbind ?t _] => destruct t as [[edges|]|] end; cbn [rbind] in H; try discriminate. destruct (bin_array arr edges) as [b ls]. apply IH in H. rewrite H. apply lset_labels.
Qed.
Lemma bin_data_labels : forall data cols bins q r, bin_data_ld npq data cols bins q = Ok r -> labels (fst r) = labels data.
Proof.
  intros data cols bins q r H. destruct bins as [[n|l|]|dd]; cbn [bin_data_ld] in H; try (apply bin_labels in H; exact H). destruct (forallb _ cols); [apply bin_labels in H; exact H|discriminate].
Qed.
Theorem C110_numbers_never : forall f interval_cols CI nd bins q d u o z c c', In (LInt z, c) f -> In c' f -> fst c' <> LInt z ->
  (let ic := match interval_cols with Some l => l | None => guess_l f end in kept ic d (LInt z, c) /\ kept ic d c') ->
  exists e, outlier_matrices_l npq OL fmt f interval_cols CI nd bins q [] d u o = Raise e.
Proof.
  intros f interval_cols CI nd bins q d u o z c c' I1 I2 NE. cbv zeta. intros [K1 K2]. pose proof (C110_matrices f interval_cols CI nd bins q [] d u o) as H. cbv zeta in H.
  set (ic := match interval_cols with Some l => l | None => guess_l f end) in *. pose proof (C98_check f ic d) as C.
  destruct (dq_check_l f ic d) as [[[g ic'] w]|e]; [|exists e; exact H]. destruct C as (_ & _ & _ & S1 & _).
  destruct (bin_data_ld npq g ic' bins q) as [[binned dict]|e] eqn:EB; [|exists e; exact H].
  destruct (outlier_matrices_rebinned_l OL fmt binned dict CI nd [] d u o) as [ms|e]; [|exists e; exact H].
  destruct H as [(_ & H)|(H & _)]; [exists TypeError; exact H|]. exfalso. apply bin_data_labels in EB. cbn [fst] in EB. rewrite EB in H.
  assert (G1 : In (LInt z) (labels g)) by (apply in_labels; exists c; apply (selects_In _ _ _ _ S1); split; assumption).
  assert (G2 : In (fst c') (labels g)) by (apply in_labels; exists (snd c'); rewrite <- surjective_pairing; apply (selects_In _ _ _ _ S1); split; assumption).
  assert (L2 : (2 <= length (labels g))%nat).
  { destruct (labels g) as [|a [|b l]]; [destruct G1|exfalso|cbn; lia]. destruct G1 as [E1|[]], G2 as [E2|[]]. congruence. }
  destruct (in_pairs _ _ _ G1 L2) as (p & IP & [E|E]); destruct (H p IP) as [X Y]; [apply X|apply Y]; exists z; exact E.
Qed.
(** the default labels 0, 1 of pandas, one proper table: outlier_significance_matrix would work, outlier_significance_matrices does not *)
Definition numbered : lframe := [(LInt 0, mkCol false [CStr "x"; CStr "y"]); (LInt 1, mkCol false [CStr "x"; CStr "y"])]%string.
Theorem C110_default_labels : forall CI nd bins q, (exists pz, outlier_significance_matrix_from_hist2d OL (mkH [CStr "x"; CStr "y"]%string [CStr "x"; CStr "y"]%string [[1; 0]; [0; 1]]%nat) CI = Ok pz) ->
  (exists m, outlier_matrix_l npq OL fmt numbered None CI nd (LOne (BNum bins)) q true true true = Ok (m, [])) /\
  outlier_matrices_l npq OL fmt numbered None CI nd (LOne (BNum bins)) q [] true true true = Raise TypeError.
Proof.
  intros CI nd bins q H. split.
  - unfold outlier_matrix_l. assert (D : dq_check_l numbered (guess_l numbered) true = Ok (numbered, [], [])) by (vm_compute; reflexivity). cbn [numbered length Nat.eqb negb]. fold numbered. rewrite D. cbn [rbind fst snd bin_data_ld bin_cols_ld].
    unfold outlier_rebinned_l. cbn [numbered lclean map fst snd c_num c_cells clean1 label_eqb Z.eqb]. set (hh := crosstab _). assert (HH : hh = mkH [CStr "x"; CStr "y"]%string [CStr "x"; CStr "y"]%string [[1; 0]; [0; 1]]%nat) by (vm_compute; reflexivity). rewrite HH. clear HH hh. set (hh := mkH _ _ _). assert (HR : is01 (length (h_rows hh)) || is01 (length (h_cols hh)) = false) by (vm_compute; reflexivity). rewrite HR.
    cbn [relabel_axis_l lassoc rbind]. destruct H as (pz & H); unfold hh; rewrite H. cbn [rbind]. eexists. reflexivity.
  - pose proof (C110_matrices numbered None CI nd (LOne (BNum bins)) q [] true true true) as M. cbv beta iota zeta in M.
    assert (D : dq_check_l numbered (guess_l numbered) true = Ok (numbered, [], [])) by (vm_compute; reflexivity). rewrite D in M. cbn [bin_data_ld bin_cols_ld] in M.
    assert (E : exists ms, outlier_matrices_rebinned_l OL fmt numbered [] CI nd [] true true true = Ok ms).
    { unfold outlier_matrices_rebinned_l. change (pairs (labels numbered)) with [(LInt 0, LInt 1)]. cbn [mapM]. change (two_columns_l numbered (LInt 0, LInt 1)) with (Ok numbered). cbn [rbind].
      unfold outlier_rebinned_l. cbn [numbered lclean map fst snd c_num c_cells clean1 label_eqb Z.eqb]. set (hh := crosstab _). assert (HH : hh = mkH [CStr "x"; CStr "y"]%string [CStr "x"; CStr "y"]%string [[1; 0]; [0; 1]]%nat) by (vm_compute; reflexivity). rewrite HH. clear HH hh. set (hh := mkH _ _ _). assert (HR : is01 (length (h_rows hh)) || is01 (length (h_cols hh)) = false) by (vm_compute; reflexivity). rewrite HR.
      cbn [relabel_axis_l lassoc rbind]. destruct H as (pz & H); unfold hh; rewrite H. cbn [rbind]. eexists. reflexivity. }
    destruct E as (ms & E). rewrite E in M. destruct M as [(_ & M)|(M & _)]; [exact M|]. exfalso. destruct (M (LInt 0, LInt 1)) as [X _]; [left; reflexivity|]. apply X. exists 0%Z. reflexivity.
Qed.

(** With string names nothing is refused. *)
Theorem C110_strings : forall df interval_cols CI nd bins q combinations d u o, NoDup (keys df) ->
  outlier_matrices_l npq OL fmt (relabel LStr df) (option_map (map LStr) interval_cols) CI nd (relabel_bins LStr bins) q (map (fun c => (LStr (fst c), LStr (snd c))) combinations) d u o =
  rmap (fun r => (fst r, relabel LStr (snd r))) (outlier_significance_matrices OL fmt npq df interval_cols CI nd bins q combinations d u o).
Proof.
  intros df interval_cols CI nd bins q combinations d u o ND. unfold outlier_matrices_l. rewrite guess_rename. set (ic := match interval_cols with Some l => l | None => guess_interval_cols df end).
  assert (INJ : forall a b, LStr a = LStr b -> a = b) by congruence. pose proof (check_rename LStr df ic d INJ ND) as C.
  assert (NI : forall z, ~ In (LInt z) (labels (relabel LStr df))) by (intros z I; rewrite r_labels in I; apply in_map_iff in I; destruct I as (x & E & _); discriminate).
  destruct (dq_check_l (relabel LStr df) (map LStr ic) d) as [[[g ic'] w]|e].
  2:{ exfalso. destruct e; try contradiction; [destruct C as (_ & z & c & I & _); apply (NI z), in_labels; exists c; exact I|destruct C as [(z & I & _) _]; exact (NI z I)]. }
  destruct C as (_ & _ & -> & ->). cbn [rbind fst snd]. rewrite (C110_bin_data LStr INJ). unfold outlier_significance_matrices. fold ic.
  pose proof (dq_keys df ic d ND) as NK. destruct (dq_check_nunique_values df ic d) as [cl icc]. cbn [fst snd] in *. destruct (bin_data npq cl icc bins q) as [[bf dict]|e] eqn:EB; [|reflexivity].
  cbn [rmap rbind relabel2 fst snd]. assert (NB : NoDup (keys bf)) by (pose proof (bin_data_spec _ _ _ _ _ _ _ EB) as (K & _); rewrite K; exact NK).
  rewrite (proj1 (C110_matrices_rebinned LStr INJ OL fmt bf dict CI nd combinations d u o NB)) by (intros c _ (x & y & _ & _ & _ & _ & [(z & X)|(z & X)]); discriminate).
  destruct (outlier_significance_matrices_from_rebinned_df OL fmt bf dict CI nd combinations d u o) as [ms|e]; [|reflexivity]. cbn [rmap rbind fst snd].
  assert (J : mapM (fun m => let* k := join_l (fst (fst m)) (snd (fst m)) in Ok (k, snd m)) (map (rn LStr) ms) = Ok (map (fun m => (colon_key (fst (fst m)) (snd (fst m)), snd m)) ms)).
  { induction ms as [|m ms IH]; [reflexivity|]. cbn [map mapM rn fst snd join_l rbind]. rewrite IH. reflexivity. }
  rewrite J. cbn [rbind]. do 2 f_equal. generalize (@nil (string * oresult)) as acc. induction ms as [|m ms IH]; intros acc; [reflexivity|]. cbn [map fold_left fst snd]. apply IH. cbn [map mapM rn fst snd join_l rbind] in J. destruct (mapM _ (map (rn LStr) ms)) as [v|]; [|discriminate]. cbn [rbind] in J. congruence.
Qed.
End Matrices.
Print Assumptions C110_matrix.
