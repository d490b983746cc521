(** C116: the dictionary of outlier matrices in binary64 arithmetic. *)
From Coq Require Import String Ascii ZArith List Bool Lia Sorting.Permutation.
Import ListNotations.
From Verif Require Import F64 Base Cells BinModel SpecBin BinProofs BinDataProofs HistModel SpecHist HistProofs PhikModel SpecPhik FrameProofs ArrayModel SpecSpark
  OutModel SpecOut PropsOut4 OutMatFModel OutMatsFModel SpecOutMatsF PropsPhik2 PropsOut6 PropsOrder PropsOutMatF.
Open Scope list_scope.

(** * the data-quality check and the binning of two columns alone *)
Lemma assoc_filter : forall B (p : string -> bool) (l : list (string * B)) c, assoc c (filter (fun q => p (fst q)) l) = if p c then assoc c l else None.
Proof.
  intros B p l c. induction l as [|[k b] l IH]; [destruct (p c); reflexivity|]. cbn [filter fst assoc]. destruct (p k) eqn:PK; cbn [assoc]; destruct (String.eqb_spec c k) as [->|N]; rewrite ?PK; try reflexivity; rewrite IH, ?PK; try reflexivity.
Qed.
Lemma filter_true : forall A (l : list A), filter (fun _ => true) l = l. Proof. induction l as [|a l IH]; [reflexivity|]. cbn. rewrite IH. reflexivity. Qed.
Definition dropped (df : frame) (ic : list string) (d : bool) (c : string) : bool :=
  let nu := match assoc c df with Some x => nunique x | None => 0%nat end in
  if mem c ic then Nat.ltb nu 2 else Nat.eqb nu 0 || (Nat.eqb nu 1 && d).
Lemma mem_filter : forall (p : string -> bool) l c, mem c (filter p l) = p c && mem c l.
Proof.
  intros p l c. induction l as [|k l IH]; [symmetry; apply andb_false_r|]. cbn [filter]. destruct (p k) eqn:PK; unfold mem in *; cbn [existsb]; destruct (String.eqb_spec c k) as [->|N]; cbn [orb]; rewrite ?PK; try reflexivity; rewrite IH, ?PK; reflexivity.
Qed.
Lemma mem_app : forall l l' c, mem c (l ++ l') = mem c l || mem c l'. Proof. intros. unfold mem. apply existsb_app. Qed.
Lemma dq_form : forall df ic d, let r := dq_check_nunique_values df ic d in
  (forall c, mem c (keys df) = true -> assoc c (fst r) = if dropped df ic d c then None else assoc c df) /\
  (forall c, mem c (keys df) = false -> assoc c (fst r) = None /\ mem c (snd r) = false) /\
  (forall c, mem c (keys df) = true -> mem c (snd r) = mem c ic && negb (dropped df ic d c)).
Proof.
  intros df ic d. unfold dq_check_nunique_values. set (ic' := filter _ ic). cbv zeta. set (nu := fun c => _). set (dr := _ ++ _).
  assert (MI : forall c, mem c ic' = mem c (keys df) && mem c ic) by (intros c; apply (mem_filter (fun c => mem c (keys df)))).
  assert (MD : forall c, mem c (keys df) = true -> mem c dr = dropped df ic d c).
  { intros c K. unfold dr. rewrite mem_app, !mem_filter, MI, K. cbn [andb]. unfold dropped. fold (nu c). destruct (mem c ic); cbn [negb andb]; rewrite ?andb_true_r, ?andb_false_r, ?orb_false_r; reflexivity. }
  assert (NA : forall c, mem c (keys df) = false -> assoc c df = None) by (intros c K; apply assoc_None; exact (proj1 (mem_false _ _) K)).
  assert (E : match dr with [] => (df, ic') | _ => (filter (fun p => negb (mem (fst p) dr)) df, filter (fun c => negb (mem c dr)) ic') end = (filter (fun p => negb (mem (fst p) dr)) df, filter (fun c => negb (mem c dr)) ic')).
  { destruct dr; [|reflexivity]. f_equal; symmetry; apply filter_true. }
  rewrite E. clear E. cbn [fst snd].
  assert (A : forall c, assoc c (filter (fun p => negb (mem (fst p) dr)) df) = if negb (mem c dr) then assoc c df else None) by (intros c; apply (assoc_filter _ (fun c => negb (mem c dr)))).
  split; [|split].
  - intros c K. rewrite A, (MD c K). destruct (dropped df ic d c); reflexivity.
  - intros c K. rewrite A, (NA c K), (mem_filter (fun c => negb (mem c dr))), MI, K. split; [destruct (negb _); reflexivity|apply andb_false_r].
  - intros c K. rewrite (mem_filter (fun c => negb (mem c dr))), MI, K, (MD c K). cbn [andb]. apply andb_comm.
Qed.
Lemma two_keys : forall (o : frame) a b, keys o = [a; b] -> a <> b -> exists x y, o = [(a, x); (b, y)] /\ assoc a o = Some x /\ assoc b o = Some y.
Proof.
  intros o a b K N. destruct o as [|[k x] [|[k' y] [|z o]]]; try discriminate K. cbn in K. injection K as -> ->. exists x, y. split; [reflexivity|]. cbn [assoc]. rewrite !String.eqb_refl. apply not_eq_sym in N. apply String.eqb_neq in N. rewrite N. auto.
Qed.
Section Bins.
  Variable npq : list f64 -> Z -> list f64.
  Lemma bin_data_dict : forall data cols bins q out dict c, bin_data npq data cols bins q = Ok (out, dict) -> ~ In c cols -> assoc c dict = None.
  Proof.
    intros data cols bins q out dict c H NI.
    assert (HC : match bins with BDict d => forallb (fun c => mem c (keys d)) cols = true | _ => True end) by (destruct bins as [b|d]; [exact I|]; unfold bin_data in H; destruct (forallb _ cols); [reflexivity|discriminate]).
    destruct (bin_data_bin_cols npq data cols bins q HC) as (xb & _ & _ & E). rewrite E in H. destruct (bin_cols_frame _ _ _ _ _ _ _ _ _ _ H) as [_ F]. exact (proj2 (F c NI)).
  Qed.
  Lemma asks_fun : forall bins q c arr e e', supported (spec_of bins c) -> asks_for npq bins q c arr e -> asks_for npq bins q c arr e' -> e = e'.
  Proof. intros bins q c arr e e' S A B. unfold asks_for in *. destruct (spec_of bins c) as [[n|l|]|]; try contradiction; congruence. Qed.
  Lemma bin_pair : forall df ic icp bins q out dict a b x y, bin_data npq df ic bins q = Ok (out, dict) -> a <> b -> assoc a df = Some x -> assoc b df = Some y ->
    (forall c, In c icp <-> In c ic /\ (c = a \/ c = b)) -> (forall c, In c icp -> supported (spec_of bins c)) ->
    exists x' y' dict', assoc a out = Some x' /\ assoc b out = Some y' /\ bin_data npq [(a, x); (b, y)] icp bins q = Ok ([(a, x'); (b, y')], dict') /\
      assoc a dict' = assoc a dict /\ assoc b dict' = assoc b dict.
  Proof.
    intros df ic icp bins q out dict a b x y H N XA YB I S. destruct (bin_data_spec _ _ _ _ _ _ _ H) as (K & NI & IN).
    set (g := [(a, x); (b, y)]). assert (GA : assoc a g = Some x) by (cbn; rewrite String.eqb_refl; reflexivity). assert (GB : assoc b g = Some y) by (cbn; rewrite (proj2 (String.eqb_neq _ _) (not_eq_sym N)), String.eqb_refl; reflexivity).
    assert (HC : match bins with BDict d => forallb (fun c => mem c (keys d)) icp = true | _ => True end).
    { destruct bins as [s|d]; [exact Logic.I|]. unfold bin_data in H. destruct (forallb _ ic) eqn:F; [|discriminate H]. rewrite forallb_forall in F. apply forallb_forall. intros c Hc. apply F. apply I in Hc. tauto. }
    assert (T : is_ok (bin_data npq g icp bins q) = true).
    { destruct (bin_data_bin_cols npq g icp bins q HC) as (xb & XB & _ & E). rewrite E. apply bin_cols_total; [exact XB|]. intros c Hc. pose proof (proj1 (I c) Hc) as [Hi Hab]. destruct (IN c Hi (S c Hc)) as (column & arr & edges & A1 & A2 & A3 & _). exists column, arr, edges.
      split; [|auto]. destruct Hab as [-> | ->]; congruence. }
    destruct (bin_data npq g icp bins q) as [[o dict']|] eqn:B; [|discriminate T]. destruct (bin_data_spec _ _ _ _ _ _ _ B) as (K' & NI' & IN'). destruct (two_keys o a b K' N) as (x' & y' & -> & OA & OB).
    assert (AG : forall c, c = a \/ c = b -> assoc c [(a, x'); (b, y')] = assoc c out /\ assoc c dict' = assoc c dict).
    { intros c Hab. assert (GD : assoc c g = assoc c df) by (destruct Hab as [-> | ->]; congruence). destruct (in_dec string_dec c icp) as [Hc|Hc].
      - destruct (IN' c Hc (S c Hc)) as (c1 & arr & e & A1 & A2 & A3 & A4 & A5). apply I in Hc as Hi. destruct (IN c (proj1 Hi) (S c Hc)) as (c2 & arr2 & e2 & B1 & B2 & B3 & B4 & B5).
        assert (c1 = c2) as -> by congruence. assert (arr = arr2) as -> by congruence. assert (e = e2) as -> by exact (asks_fun _ _ _ _ _ _ (S c Hc) A3 B3). split; congruence.
      - assert (Hi : ~ In c ic) by (intros Hi; apply Hc, I; auto). rewrite (NI' c Hc), (NI c Hi), (bin_data_dict _ _ _ _ _ _ c B Hc), (bin_data_dict _ _ _ _ _ _ c H Hi). auto. }
    destruct (AG a (or_introl eq_refl)) as [P1 P2]. destruct (AG b (or_intror eq_refl)) as [Q1 Q2]. exists x', y', dict'. rewrite OA in P1. rewrite OB in Q1. auto.
  Qed.
End Bins.
Lemma dq_pair : forall df ic icg d a b x y, a <> b -> (forall c, c = a \/ c = b -> mem c icg = mem c ic) -> let r := dq_check_nunique_values df ic d in assoc a (fst r) = Some x -> assoc b (fst r) = Some y ->
  exists icp, dq_check_nunique_values [(a, x); (b, y)] icg d = ([(a, x); (b, y)], icp) /\ assoc a df = Some x /\ assoc b df = Some y /\ (forall c, In c icp <-> In c (snd r) /\ (c = a \/ c = b)).
Proof.
  intros df ic icg d a b x y N MI r XA YB. destruct (dq_form df ic d) as (F1 & F2 & F3). fold r in F1, F2, F3. 
  assert (KA : mem a (keys df) = true) by (destruct (mem a (keys df)) eqn:K; [reflexivity|]; destruct (F2 a K); congruence).
  assert (KB : mem b (keys df) = true) by (destruct (mem b (keys df)) eqn:K; [reflexivity|]; destruct (F2 b K); congruence).
  pose proof (F1 a KA) as EA. pose proof (F1 b KB) as EB. rewrite XA in EA. rewrite YB in EB. destruct (dropped df ic d a) eqn:DA; [discriminate EA|]. destruct (dropped df ic d b) eqn:DB; [discriminate EB|].
  set (g := [(a, x); (b, y)]). assert (GA : assoc a g = Some x) by (cbn; rewrite String.eqb_refl; reflexivity). assert (GB : assoc b g = Some y) by (cbn; rewrite (proj2 (String.eqb_neq _ _) (not_eq_sym N)), String.eqb_refl; reflexivity).
  assert (GDA : dropped g icg d a = false) by (rewrite <- DA; unfold dropped; rewrite (MI a (or_introl eq_refl)), GA, <- EA; reflexivity). assert (GDB : dropped g icg d b = false) by (rewrite <- DB; unfold dropped; rewrite (MI b (or_intror eq_refl)), GB, <- EB; reflexivity).
  assert (MG : forall c, mem c (keys g) = true <-> c = a \/ c = b) by (intros c; rewrite mem_In; cbn; intuition congruence).
  destruct (dq_form g icg d) as (G1 & G2 & G3). destruct (dq_check_nunique_values g icg d) as [g' icp] eqn:DQ. cbn [fst snd] in *. exists icp. split; [|split; [congruence|split; [congruence|]]].
  - f_equal. unfold dq_check_nunique_values in DQ. set (ic' := filter _ icg) in DQ. cbv zeta in DQ. set (dr := _ ++ _) in DQ. destruct dr as [|d0 dr]; [congruence|].
    apply (f_equal fst) in DQ. cbn [fst] in DQ. pose proof (G1 a (proj2 (MG a) (or_introl eq_refl))) as A1. pose proof (G1 b (proj2 (MG b) (or_intror eq_refl))) as B1. rewrite GDA, GA in A1. rewrite GDB, GB in B1.
    set (p := fun c : string => negb (mem c (d0 :: dr))). assert (FA : forall c, assoc c (filter (fun q => negb (mem (fst q) (d0 :: dr))) g) = if p c then assoc c g else None) by exact (assoc_filter _ p g). rewrite <- DQ in A1, B1. rewrite FA in A1, B1.
    assert (FG : filter (fun q => negb (mem (fst q) (d0 :: dr))) g = (if p a then [(a, x)] else []) ++ (if p b then [(b, y)] else [])) by (unfold g, p; cbn [filter fst]; destruct (negb (mem a _)); destruct (negb (mem b _)); reflexivity).
    rewrite <- DQ, FG. destruct (p a); [|discriminate A1]. destruct (p b); [|discriminate B1]. reflexivity.
  - intros c. rewrite <- !mem_In. destruct (mem c (keys g)) eqn:M.
    + rewrite (G3 c M). apply MG in M as M'. assert (KC : mem c (keys df) = true) by (destruct M' as [-> | ->]; assumption). rewrite (F3 c KC), (MI c M').
      assert (dropped g icg d c = false /\ dropped df ic d c = false) as [-> ->] by (destruct M' as [-> | ->]; auto). intuition.
    + rewrite (proj2 (G2 c M)). split; [discriminate|]. intros [_ M']. apply MG in M'. congruence.
Qed.
Lemma guess_In : forall f c x, NoDup (keys f) -> assoc c f = Some x -> mem c (guess_interval_cols f) = c_num x.
Proof.
  intros f c x ND A. unfold guess_interval_cols. destruct (c_num x) eqn:C.
  - apply mem_In, in_map_iff. exists (c, x). split; [reflexivity|]. apply filter_In. split; [exact (assoc_In _ _ _ _ A)|exact C].
  - apply mem_false. intros H. apply in_map_iff in H. destruct H as ([k z] & E & H). cbn in E. subst k. apply filter_In in H. destruct H as [H C']. cbn in C'. rewrite (assoc_NoDup _ c z f ND H) in A. congruence.
Qed.
Lemma intervals_pair : forall ic df a b x y, (ic = None -> NoDup (keys df)) -> a <> b -> assoc a df = Some x -> assoc b df = Some y ->
  forall c, c = a \/ c = b -> mem c (intervals ic [(a, x); (b, y)]) = mem c (intervals ic df).
Proof.
  intros [l|] df a b x y ND N A B c Hc; [reflexivity|]. cbn [intervals]. specialize (ND eq_refl).
  assert (NG : NoDup (keys [(a, x); (b, y)])) by (cbn; constructor; [cbn; intuition congruence|constructor; [intros []|constructor]]).
  assert (GA : assoc a [(a, x); (b, y)] = Some x) by (cbn; rewrite String.eqb_refl; reflexivity). assert (GB : assoc b [(a, x); (b, y)] = Some y) by (cbn; rewrite (proj2 (String.eqb_neq _ _) (not_eq_sym N)), String.eqb_refl; reflexivity).
  destruct Hc as [-> | ->]; [rewrite (guess_In _ _ _ NG GA), (guess_In _ _ _ ND A)|rewrite (guess_In _ _ _ NG GB), (guess_In _ _ _ ND B)]; reflexivity.
Qed.
Lemma mapM_mem : forall A B (g : A -> res B) l r, mapM g l = Ok r -> Forall2 (fun x y => g x = Ok y) l r.
Proof.
  intros A B g l. induction l as [|a l IH]; intros r H; cbn [mapM] in H; [injection H as <-; constructor|]. destruct (g a) as [b|] eqn:G; [|discriminate H]. cbn [rbind] in H. destruct (mapM g l) as [r'|] eqn:M; [|discriminate H]. cbn [rbind] in H. injection H as <-. constructor; auto.
Qed.
Lemma mapM_err : forall A B (g : A -> res B) l e, mapM g l = Raise e -> exists x, In x l /\ g x = Raise e.
Proof.
  intros A B g l e. induction l as [|a l IH]; intros H; [discriminate H|]. cbn [mapM] in H. destruct (g a) as [b|e'] eqn:G; cbn [rbind] in H; [|exists a; split; [left; reflexivity|congruence]]. destruct (mapM g l) as [r'|] eqn:M; [discriminate H|]. cbn [rbind] in H. destruct IH as (x & I & E); [congruence|]. exists x. split; [right; exact I|congruence].
Qed.
Lemma relabel_dict : forall fmt nd dict dict' c cells axis, assoc c dict' = assoc c dict -> relabel fmt nd dict' c cells axis = relabel fmt nd dict c cells axis.
Proof. intros fmt nd dict dict' c cells axis E. unfold relabel. rewrite E. reflexivity. Qed.

Section Lib.
  Variable fbetainc : f64 -> f64 -> f64 -> f64.
  Variable fgammaln : f64 -> f64.
  Variables fpsf fplogsf : f64 -> f64 -> f64.
  Variables fppf flog fexpo pow2 : f64 -> f64.
  Variable fmt : Z -> f64 * f64 -> string.
  Variable npq : list f64 -> Z -> list f64.
  Notation rebinned := (outlier_rebinned_64 fbetainc fgammaln fpsf fplogsf fppf flog fexpo pow2 fmt).
  Notation pair64 := (outlier_pair_64 fbetainc fgammaln fpsf fplogsf fppf flog fexpo pow2 fmt).
  Notation pairs64 := (outlier_pairs_64 fbetainc fgammaln fpsf fplogsf fppf flog fexpo pow2 fmt).
  Notation matrix64 := (outlier_matrix_64 fbetainc fgammaln fpsf fplogsf fppf flog fexpo pow2 fmt npq).
  Notation matrices64 := (outlier_matrices_64 fbetainc fgammaln fpsf fplogsf fppf flog fexpo pow2 fmt npq).
  Lemma rebinned_dict : forall a x b y dict dict' nd d u o, assoc a dict' = assoc a dict -> assoc b dict' = assoc b dict -> rebinned [(a, x); (b, y)] dict' nd d u o = rebinned [(a, x); (b, y)] dict nd d u o.
  Proof. intros a x b y dict dict' nd d u o A B. rewrite !rebinned_eq. cbv zeta. rewrite !(relabel_dict fmt nd dict dict' a _ _ A), !(relabel_dict fmt nd dict dict' b _ _ B). reflexivity. Qed.
  (** the two columns of a pair, analysed alone *)
  Lemma pair_alone : forall df ic nd bins q d u o out dict a b m,
    (let dq := dq_check_nunique_values df (intervals ic df) d in bin_data npq (fst dq) (snd dq) bins q) = Ok (out, dict) ->
    (ic = None -> NoDup (keys df)) -> (forall c, c = a \/ c = b -> In c (intervals ic df) -> supported (spec_of bins c)) ->
    pair64 out dict nd d u o (a, b) = Ok m ->
    exists x y dict', a <> b /\ assoc a df = Some x /\ assoc b df = Some y /\ matrix64 [(a, x); (b, y)] ic nd bins q d u o = Ok (snd m, dict') /\ assoc a dict' = assoc a dict /\ assoc b dict' = assoc b dict.
  Proof.
    intros df ic nd bins q d u o out dict a b m HB ND S H. cbv zeta in HB. unfold outlier_pair_64 in H. destruct (two_columns out (a, b)) as [f2|] eqn:T; [|discriminate H]. cbn [rbind fst snd] in H. destruct (rebinned f2 dict nd d u o) as [r|] eqn:R0; [|discriminate H]. cbn [rbind] in H. injection H as <-. cbn [snd].
    apply two_columns_spec in T. cbn [fst snd] in T. destruct T as (x' & y' & OA & OB & N & ->).
    destruct (bin_data_spec _ _ _ _ _ _ _ HB) as (K & _ & _).
    assert (EX : forall c z, assoc c out = Some z -> exists w, assoc c (fst (dq_check_nunique_values df (intervals ic df) d)) = Some w).
    { intros c z A. destruct (assoc c (fst (dq_check_nunique_values df (intervals ic df) d))) as [w|] eqn:W; [exists w; reflexivity|]. apply assoc_None in W. rewrite <- K in W. apply assoc_None in W. congruence. }
    destruct (EX _ _ OA) as (x & XA). destruct (EX _ _ OB) as (y & YB).
    destruct (dq_form df (intervals ic df) d) as (F1 & F2 & _).
    assert (INT : forall c w, assoc c (fst (dq_check_nunique_values df (intervals ic df) d)) = Some w -> assoc c df = Some w) by (intros c w W; destruct (mem c (keys df)) eqn:M; [rewrite (F1 c M) in W; destruct (dropped _ _ _ _); [discriminate W|exact W]|destruct (F2 c M); congruence]).
    destruct (dq_pair df (intervals ic df) (intervals ic [(a, x); (b, y)]) d a b x y N (intervals_pair ic df a b x y ND N (INT _ _ XA) (INT _ _ YB)) XA YB) as (icp & DQ & DA & DB & ICP).
    destruct (bin_pair npq _ _ icp bins q out dict a b x y HB N XA YB ICP) as (x1 & y1 & dict' & P1 & P2 & BD & D1 & D2).
    { intros c Hc. apply ICP in Hc. destruct Hc as [Hc Hab]. apply (S c Hab). unfold dq_check_nunique_values in Hc. cbv zeta in Hc. match type of Hc with In _ (snd (match ?l with _ => _ end)) => destruct l end; cbn [snd] in Hc; repeat (apply filter_In in Hc; destruct Hc as [Hc _]); exact Hc. }
    exists x, y, dict'. split; [exact N|]. split; [exact DA|]. split; [exact DB|]. split; [|auto]. unfold outlier_matrix_64. cbn [length Nat.eqb negb]. fold (intervals ic [(a, x); (b, y)]). rewrite DQ. rewrite BD. cbn [rbind fst snd].
    assert (x1 = x') as -> by congruence. assert (y1 = y') as -> by congruence. rewrite (rebinned_dict a x' b y' dict dict' nd d u o D1 D2), R0. reflexivity.
  Qed.

  Notation key c := (fst c ++ ":" ++ snd c)%string (only parsing).
  Lemma matrices_inv : forall df ic nd bins q combos d u o r, matrices64 df ic nd bins q combos d u o = r ->
    (exists e, (let dq := dq_check_nunique_values df (intervals ic df) d in bin_data npq (fst dq) (snd dq) bins q) = Raise e /\ r = Raise e) \/
    exists out dict, (let dq := dq_check_nunique_values df (intervals ic df) d in bin_data npq (fst dq) (snd dq) bins q) = Ok (out, dict) /\
      r = rmap (fun ms => (fold_left (fun d m => dict_set (fst m) (snd m) d) (map (fun m => (keyof (fst m), snd m)) ms) [], dict)) (mapM (pair64 out dict nd d u o) (asked df ic d combos)).
  Proof.
    intros df ic nd bins q combos d u o r <-. unfold outlier_matrices_64, asked, clean_cols. fold (intervals ic df). destruct (dq_check_nunique_values df (intervals ic df) d) as [g ic']. cbv zeta. cbn [fst snd].
    destruct (bin_data npq g ic' bins q) as [[out dict]|e] eqn:B; cbn [rbind fst snd]; [|left; exists e; auto]. right. exists out, dict. split; [reflexivity|]. unfold outlier_pairs_64. destruct (bin_data_spec _ _ _ _ _ _ _ B) as (K & _). rewrite K.
    destruct (mapM _ _) as [ms|e]; cbn [rbind rmap]; [|reflexivity]. do 2 f_equal. generalize (@nil (string * oresult64)). induction ms as [|m ms IH]; intros l; [reflexivity|]. cbn [map fold_left fst snd]. apply IH.
  Qed.
  Lemma pair_names : forall out dict nd d u o c m, pair64 out dict nd d u o c = Ok m -> fst m = c.
  Proof. intros out dict nd d u o c m H. unfold outlier_pair_64 in H. destruct (two_columns out c) as [f2|]; [|discriminate H]. cbn [rbind] in H. destruct (rebinned f2 dict nd d u o); [|discriminate H]. cbn [rbind] in H. injection H as <-. destruct c; reflexivity. Qed.
  Lemma forall2_names : forall out dict nd d u o cs ms, Forall2 (fun c m => pair64 out dict nd d u o c = Ok m) cs ms -> map fst ms = cs.
  Proof. intros out dict nd d u o cs ms F. induction F as [|c m cs ms H F IH]; [reflexivity|]. cbn [map]. rewrite IH, (pair_names _ _ _ _ _ _ _ _ H). reflexivity. Qed.
  Lemma keys_ms : forall (ms : list (string * string * oresult64)), keys (map (fun m => (keyof (fst m), snd m)) ms) = map keyof (map fst ms).
  Proof. intros ms. unfold keys. rewrite !map_map. reflexivity. Qed.
  (** the entry "a:b" is what outlier_significance_matrix gives for the two columns alone, bit for bit (if two requested pairs share a key: the last of them) *)
  Theorem C116_same_as_two_columns : forall df ic nd bins q combos d u o res dict before a b after,
    matrices64 df ic nd bins q combos d u o = Ok (res, dict) -> asked df ic d combos = before ++ (a, b) :: after ->
    (forall c, In c after -> key c <> (a ++ ":" ++ b)%string) -> (ic = None -> NoDup (keys df)) ->
    (forall c, c = a \/ c = b -> In c (intervals ic df) -> supported (spec_of bins c)) ->
    exists x y m dict', a <> b /\ assoc a df = Some x /\ assoc b df = Some y /\ matrix64 [(a, x); (b, y)] ic nd bins q d u o = Ok (m, dict') /\
      assoc (a ++ ":" ++ b)%string res = Some m /\ assoc a dict' = assoc a dict /\ assoc b dict' = assoc b dict.
  Proof.
    intros df ic nd bins q combos d u o res dict before a b after H HR HA ND S. destruct (matrices_inv _ _ _ _ _ _ _ _ _ _ H) as [(e & _ & E)|(out & dict0 & HB & E)]; [discriminate E|].
    destruct (mapM _ _) as [ms|] eqn:M; [|discriminate E]. cbn [rmap] in E. injection E as -> <-. apply mapM_mem in M. rewrite HR in M. apply Forall2_app_inv_l in M. destruct M as (m1 & m2 & _ & M2 & ->). inversion M2 as [|c0 m0 cs0 ms0 P F0 Q1 Q2]; subst.
    destruct (pair_alone _ _ _ _ _ _ _ _ _ _ _ _ _ HB ND S P) as (x & y & dict' & N & XA & YB & MM & D1 & D2). exists x, y, (snd m0), dict'. do 4 (split; [assumption|]). split; [|auto].
    rewrite fold_dict. unfold last_value. rewrite map_app, rev_app_distr. cbn [map rev]. rewrite <- app_assoc, assoc_app. cbn [app].
    assert (NN : assoc (a ++ ":" ++ b)%string (rev (map (fun m => (keyof (fst m), snd m)) ms0)) = None).
    { apply assoc_None. unfold keys. rewrite map_rev. intros HI. apply in_rev in HI. change (map fst ?l) with (keys l) in HI. rewrite keys_ms, (forall2_names _ _ _ _ _ _ _ _ F0) in HI. apply in_map_iff in HI. destruct HI as (c' & E & Hc'). exact (HA c' Hc' E). }
    rewrite NN. cbn [assoc]. rewrite (pair_names _ _ _ _ _ _ _ _ P). change (keyof (a, b)) with (a ++ ":" ++ b)%string. rewrite String.eqb_refl. reflexivity.
  Qed.
  (** without ':' in the names there is one entry per requested pair, in the order of the pairs *)
  Theorem C116_keys : forall df ic nd bins q combos d u o res dict, matrices64 df ic nd bins q combos d u o = Ok (res, dict) ->
    NoDup (asked df ic d combos) -> (forall c, In c (asked df ic d combos) -> colon_free (fst c) /\ colon_free (snd c)) -> map fst res = map (fun c => key c) (asked df ic d combos).
  Proof.
    intros df ic nd bins q combos d u o res dict H ND CF. destruct (matrices_inv _ _ _ _ _ _ _ _ _ _ H) as [(e & _ & E)|(out & dict0 & HB & E)]; [discriminate E|].
    destruct (mapM _ _) as [ms|] eqn:M; [|discriminate E]. cbn [rmap] in E. injection E as -> <-. apply mapM_mem in M. pose proof (forall2_names _ _ _ _ _ _ _ _ M) as NM.
    change (map fst ?l) with (keys l). rewrite fold_keys; rewrite keys_ms, NM; [reflexivity|]. apply nodup_map_inj; [|exact ND]. intros c c' Hc Hc' E. destruct (CF c Hc), (CF c' Hc'). destruct c as [a b], c' as [a' b']. apply colon_key_inj; assumption.
  Qed.
  (** the only errors: that of the binning, ValueError, and KeyError for a requested column that is not there (any more) *)
  Theorem C116_errors : forall df ic nd bins q combos d u o e, matrices64 df ic nd bins q combos d u o = Raise e ->
    (let dq := dq_check_nunique_values df (intervals ic df) d in bin_data npq (fst dq) (snd dq) bins q) = Raise e \/ e = ValueError \/
    (e = KeyError /\ exists c, In c combos /\ (~ In (fst c) (clean_cols df ic d) \/ ~ In (snd c) (clean_cols df ic d))).
  Proof.
    intros df ic nd bins q combos d u o e H. destruct (matrices_inv _ _ _ _ _ _ _ _ _ _ H) as [(e' & HB & E)|(out & dict0 & HB & E)]; [left; congruence|]. right.
    destruct (mapM _ _) as [ms|e2] eqn:M; [discriminate E|]. cbn [rmap] in E. assert (e2 = e) as -> by congruence. apply mapM_err in M. destruct M as (c & Hc & P). unfold outlier_pair_64 in P.
    destruct (two_columns out c) as [f2|e'] eqn:T; cbn [rbind] in P.
    - left. destruct (rebinned f2 dict0 nd d u o) as [r|e1] eqn:RB; [discriminate P|]. cbn [rbind] in P. assert (e1 = e) as -> by congruence. apply C113_rebinned_errors in RB. exact RB.
    - injection P as ->. cbv zeta in HB. destruct (bin_data_spec _ _ _ _ _ _ _ HB) as (K & _). assert (KC : keys out = clean_cols df ic d) by exact K. unfold two_columns in T.
      assert (NO : assoc (fst c) out = None \/ assoc (snd c) out = None -> e = KeyError /\ exists c, In c combos /\ (~ In (fst c) (clean_cols df ic d) \/ ~ In (snd c) (clean_cols df ic d))).
      { intros NN. rewrite !assoc_None, KC in NN. assert (IC : In c combos). { unfold asked in Hc. destruct combos; [|exact Hc]. exfalso. destruct c as [a b]. apply pairs_In in Hc. cbn [fst snd] in NN. tauto. }
        split; [|exists c; auto]. rewrite <- KC in NN. rewrite <- !assoc_None in NN. destruct (String.eqb_spec (fst c) (snd c)) as [Q|Q]; [rewrite Q in *; destruct NN as [NN|NN]; rewrite NN in T; congruence|]. destruct NN as [NN|NN]; rewrite NN in T; destruct (assoc (fst c) out); congruence. }
      destruct (assoc (fst c) out) eqn:A1; [|right; apply NO; auto]. destruct (assoc (snd c) out) eqn:A2; [|right; apply NO; auto]. destruct (String.eqb _ _); [left; congruence|discriminate T].
  Qed.
  (** a requested pair with an unknown column never passes *)
  Theorem C116_unknown_column : forall df ic nd bins q combos d u o c, In c combos -> ~ In (fst c) (clean_cols df ic d) \/ ~ In (snd c) (clean_cols df ic d) ->
    exists e, matrices64 df ic nd bins q combos d u o = Raise e.
  Proof.
    intros df ic nd bins q combos d u o c Hc NN. destruct (matrices64 df ic nd bins q combos d u o) as [r|e] eqn:H; [|exists e; reflexivity]. exfalso. destruct (matrices_inv _ _ _ _ _ _ _ _ _ _ H) as [(e & _ & E)|(out & dict0 & HB & E)]; [discriminate E|].
    destruct (mapM _ _) as [ms|] eqn:M; [|discriminate E]. cbv zeta in HB. destruct (bin_data_spec _ _ _ _ _ _ _ HB) as (K & _). assert (KC : keys out = clean_cols df ic d) by exact K.
    assert (IA : In c (asked df ic d combos)) by (unfold asked; destruct combos; [destruct Hc|exact Hc]). apply mapM_mem in M. clear - M IA NN KC. induction M as [|c0 m cs ms P M IH]; [destruct IA|]. destruct IA as [->|IA]; [|exact (IH IA)].
    unfold outlier_pair_64 in P. destruct (two_columns out c) as [f2|] eqn:T; [|discriminate P]. apply two_columns_spec in T. destruct T as (x & y & A & B & _). rewrite <- KC, <- !assoc_None in NN. destruct NN; congruence.
  Qed.
  (** the order of the records does not matter *)
  Lemma two_columns_reorder : forall l f c, two_columns (reorder l f) c = rmap (reorder l) (two_columns f c).
  Proof. intros l f c. unfold two_columns. rewrite !assoc_reorder. destruct (String.eqb _ _); destruct (assoc (fst c) f); try reflexivity; destruct (assoc (snd c) f); reflexivity. Qed.
  Theorem C116_record_order : forall f f' ic nd bins q combos d u o, order_free npq -> same_records f f' ->
    matrices64 f' ic nd bins q combos d u o = matrices64 f ic nd bins q combos d u o.
  Proof.
    intros f f' ic nd bins q combos d u o OF (n & l & RC & P & ->). unfold outlier_matrices_64. rewrite guess_reorder. set (ic0 := match ic with Some i => i | None => guess_interval_cols f end). rewrite (dq_reorder n l P) by exact RC. pose proof (rect_dq n f ic0 d RC) as R'. destruct (dq_check_nunique_values f ic0 d) as [g ic']. cbn [fst snd] in *.
    rewrite (bin_data_reorder npq OF n l P) by exact R'. destruct (bin_data npq g ic' bins q) as [[b dict]|] eqn:B; [|reflexivity]. cbn [rmap rbind fst snd]. pose proof (bin_data_rect _ _ _ _ _ _ _ _ R' B) as RB.
    assert (E : forall c, pair64 (reorder l b) dict nd d u o c = pair64 b dict nd d u o c).
    { intros c. unfold outlier_pair_64. rewrite two_columns_reorder. destruct (two_columns b c) as [f2|] eqn:T; [|reflexivity]. cbn [rmap rbind]. apply two_columns_spec in T. destruct T as (x & y & A & Bb & _ & ->).
      rewrite (C113_record_order _ _ _ _ _ _ _ _ _ [(fst c, x); (snd c, y)] (reorder l [(fst c, x); (snd c, y)])); [reflexivity|]. exists n, l. split; [|auto]. intros p [<-|[<-|[]]]; [exact (RB _ (assoc_In _ _ _ _ A))|exact (RB _ (assoc_In _ _ _ _ Bb))]. }
    unfold outlier_pairs_64. rewrite keys_reorder. set (cs := match combos with [] => _ | _ => _ end). replace (mapM (pair64 (reorder l b) dict nd d u o) cs) with (mapM (pair64 b dict nd d u o) cs); [reflexivity|].
    clearbody cs. induction cs as [|c cs IH]; [reflexivity|]. cbn [mapM]. rewrite E, IH. reflexivity.
  Qed.

  (** exchanging the two columns exchanges the index and the columns of the matrix, bit for bit *)
  Lemma filter_len : forall A (p : A -> bool) l, (length l <= length (filter p l))%nat -> filter p l = l.
  Proof.
    intros A p l. induction l as [|x l IH]; intros H; [reflexivity|]. cbn [filter] in *. assert (LE : (length (filter p l) <= length l)%nat) by (clear; induction l as [|z l IH]; [reflexivity|]; cbn [filter]; destruct (p z); cbn [length]; lia). destruct (p x); cbn [length] in H; [rewrite IH by lia; reflexivity|lia].
  Qed.
  Theorem C116_exchange : forall a x b y ic nd bins q d u o, a <> b -> (forall c, c = a \/ c = b -> In c (intervals ic [(a, x); (b, y)]) -> supported (spec_of bins c)) ->
    forall m dict, matrix64 [(a, x); (b, y)] ic nd bins q d u o = Ok (m, dict) -> exists m' dict', matrix64 [(b, y); (a, x)] ic nd bins q d u o = Ok (m', dict') /\ transposed m m'.
  Proof.
    intros a x b y ic nd bins q d u o N S m dict H. unfold outlier_matrix_64 in H. cbn [length Nat.eqb negb] in H. fold (intervals ic [(a, x); (b, y)]) in H. set (g := [(a, x); (b, y)]) in *.
    destruct (dq_check_nunique_values g (intervals ic g) d) as [g' ic'] eqn:DQ. destruct (bin_data npq g' ic' bins q) as [[out dict0]|] eqn:B; [|discriminate H]. cbn [rbind fst snd] in H. destruct (rebinned out dict0 nd d u o) as [m0|] eqn:RB; [|discriminate H]. cbn [rbind] in H. injection H as -> ->.
    destruct (bin_data_spec _ _ _ _ _ _ _ B) as (K & _).
    assert (L2 : length (keys out) = 2%nat) by (destruct out as [|? [|? [|? ?]]]; try (cbn in RB; discriminate RB); [destruct p; discriminate RB|reflexivity|destruct p, p0; discriminate RB]).
    assert (GG : g' = g).
    { unfold dq_check_nunique_values in DQ. cbv zeta in DQ. match type of DQ with (match ?l with _ => _ end) = _ => destruct l as [|d0 dr] end; [congruence|]. apply (f_equal fst) in DQ. cbn [fst] in DQ. rewrite <- DQ. apply filter_len. rewrite DQ. rewrite K in L2. unfold keys in L2. rewrite map_length in L2. rewrite L2. cbn. lia. }
    subst g'. destruct (two_keys out a b K N) as (x' & y' & EO & OA & OB).
    assert (HB : (let dq := dq_check_nunique_values g (intervals ic g) d in bin_data npq (fst dq) (snd dq) bins q) = Ok (out, dict)) by (rewrite DQ; exact B).
    pose proof (C113_column_order fbetainc fgammaln fpsf fplogsf fppf flog fexpo pow2 fmt a x' b y' dict nd d u o) as CO. rewrite <- EO, RB in CO.
    assert (TC : two_columns out (b, a) = Ok [(b, y'); (a, x')]) by (unfold two_columns; cbn [fst snd]; rewrite (proj2 (String.eqb_neq _ _) (not_eq_sym N)), OA, OB; reflexivity).
    assert (X : exists m', rebinned [(b, y'); (a, x')] dict nd d u o = Ok m' /\ transposed m m').
    { destruct m as [|rows cols z]; [exists ONaN64; split; [exact CO|exact I]|]. destruct CO as (z' & E & T). exists (OMat64 cols rows z'). split; [exact E|]. cbn. auto. }
    destruct X as (m' & E & T). assert (P : pair64 out dict nd d u o (b, a) = Ok (b, a, m')) by (unfold outlier_pair_64; rewrite TC; cbn [rbind fst snd]; rewrite E; reflexivity).
    destruct (pair_alone g ic nd bins q d u o out dict b a (b, a, m') HB) as (y1 & x1 & dict' & _ & A1 & A2 & MM & _); [|intros c Hc; apply S; tauto|exact P|].
    - intros _. cbn. constructor; [cbn; intuition congruence|constructor; [intros []|constructor]].
    - exists m', dict'. split; [|exact T]. assert (y1 = y) as -> by (unfold g in A1; cbn in A1; rewrite (proj2 (String.eqb_neq _ _) (not_eq_sym N)), String.eqb_refl in A1; congruence). assert (x1 = x) as -> by (unfold g in A2; cbn in A2; rewrite String.eqb_refl in A2; congruence). exact MM.
  Qed.
  (** outlier_significance_matrices with both (a, b) and (b, a): the two entries are transposes of one another *)
  Theorem C116_both_orders : forall df ic nd bins q combos d u o res dict a b, matrices64 df ic nd bins q combos d u o = Ok (res, dict) ->
    NoDup combos -> (forall c, In c combos -> colon_free (fst c) /\ colon_free (snd c)) -> In (a, b) combos -> In (b, a) combos -> (ic = None -> NoDup (keys df)) ->
    (forall c, c = a \/ c = b -> In c (intervals ic df) -> supported (spec_of bins c)) ->
    exists m m', assoc (a ++ ":" ++ b)%string res = Some m /\ assoc (b ++ ":" ++ a)%string res = Some m' /\ transposed m m'.
  Proof.
    intros df ic nd bins q combos d u o res dict a b H ND CF IA IB NK S.
    assert (AS : asked df ic d combos = combos) by (unfold asked; destruct combos; [destruct IA|reflexivity]).
    assert (ONE : forall a b, In (a, b) combos -> exists before after, asked df ic d combos = before ++ (a, b) :: after /\ forall c, In c after -> (fst c ++ ":" ++ snd c)%string <> (a ++ ":" ++ b)%string).
    { intros a' b' Hi. rewrite AS. destruct (in_split _ _ Hi) as (l1 & l2 & E). exists l1, l2. split; [exact E|]. intros [c1 c2] Hc Q. assert (IC : In (c1, c2) combos) by (rewrite E; apply in_or_app; right; right; exact Hc).
      destruct (CF _ IC), (CF _ Hi). cbn [fst snd] in *. apply colon_key_inj in Q; try assumption. rewrite Q in Hc. rewrite E in ND. apply NoDup_remove_2 in ND. apply ND, in_or_app. right. exact Hc. }
    destruct (ONE a b IA) as (l1 & l2 & E1 & F1). destruct (ONE b a IB) as (l3 & l4 & E2 & F2).
    destruct (C116_same_as_two_columns _ _ _ _ _ _ _ _ _ _ _ _ _ _ _ H E1 F1 NK S) as (x & y & m & dict1 & N & XA & YB & M1 & R1 & _).
    destruct (C116_same_as_two_columns _ _ _ _ _ _ _ _ _ _ _ _ _ _ _ H E2 F2 NK) as (y1 & x1 & m' & dict2 & _ & YB' & XA' & M2 & R2 & _); [intros c Hc; apply S; tauto|].
    assert (x1 = x) as -> by congruence. assert (y1 = y) as -> by congruence. exists m, m'. split; [exact R1|]. split; [exact R2|].
    destruct (C116_exchange a x b y ic nd bins q d u o N) with (m := m) (dict := dict1) as (m2 & dict3 & M3 & T); [|exact M1|congruence].
    intros c Hc Hi. apply (S c Hc). rewrite <- mem_In in *. rewrite <- Hi. symmetry. apply (intervals_pair ic df a b x y NK N XA YB c Hc).
  Qed.
  Variable str : cell -> string.
  (** the functions for two named arrays: exchanging the arrays exchanges the index and the columns *)
  Lemma arrays_frame : forall x y a b, a_name x = Some a -> a_name y = Some b -> exists cx cy, array_like_to_dataframe str x y = [(a, cx); (b, cy)] /\ array_like_to_dataframe str y x = [(b, cy); (a, cx)].
  Proof.
    intros x y a b A B. unfold array_like_to_dataframe. rewrite A, B. rewrite !forallb_app, (andb_comm (forallb is_int (a_cells y))).
    destruct (a_kind x), (a_kind y); try (destruct (_ && _)); eexists _, _; split; reflexivity.
  Qed.
  Theorem C116_arrays : forall x y a b nv bins q nd d u o, a_name x = Some a -> a_name y = Some b -> a <> b ->
    (forall c, c = a \/ c = b -> supported (spec_of bins c)) -> forall m,
    outlier_array_64 fbetainc fgammaln fpsf fplogsf fppf flog fexpo pow2 fmt npq str x y nv bins q nd d u o = Ok m ->
    exists m', outlier_array_64 fbetainc fgammaln fpsf fplogsf fppf flog fexpo pow2 fmt npq str y x nv bins q nd d u o = Ok m' /\ transposed m m'.
  Proof.
    intros x y a b nv bins q nd d u o A B N S m H. destruct (arrays_frame x y a b A B) as (cx & cy & E1 & E2). unfold outlier_array_64 in *. rewrite E1 in H. rewrite E2.
    destruct (matrix64 [(a, cx); (b, cy)] nv nd bins q d u o) as [[m0 dict]|] eqn:M; [|discriminate H]. cbn [rmap fst] in H. injection H as ->.
    destruct (C116_exchange a cx b cy nv nd bins q d u o N) with (m := m) (dict := dict) as (m' & dict' & M' & T); [auto|exact M|]. exists m'. rewrite M'. auto.
  Qed.
  Theorem C116_binned_arrays : forall x y a b d u o, a_name x = Some a -> a_name y = Some b -> a <> b -> forall m,
    outlier_binned_array_64 fbetainc fgammaln fpsf fplogsf fppf flog fexpo pow2 fmt npq str x y d u o = Ok m ->
    exists m', outlier_binned_array_64 fbetainc fgammaln fpsf fplogsf fppf flog fexpo pow2 fmt npq str y x d u o = Ok m' /\ transposed m m'.
  Proof. intros x y a b d u o A B N m H. apply (C116_arrays x y a b None (BOne (BNum 10)) false 1%Z d u o A B N); [intros c _; exact I|exact H]. Qed.
  (** outlier_significance_from_array is outlier_significance_matrix on the frame of the two arrays; outlier_significance_from_binned_array bins number
      arrays once more (10 uniform bins, one decimal in the labels) although they are documented as binned, and no other arrays *)
  Theorem C116_array_is_matrix : forall x y nv bins q nd d u o, exists cx cy, array_like_to_dataframe str x y = [(xname x, cx); (yname y, cy)] /\
    outlier_array_64 fbetainc fgammaln fpsf fplogsf fppf flog fexpo pow2 fmt npq str x y nv bins q nd d u o = rmap fst (matrix64 [(xname x, cx); (yname y, cy)] nv nd bins q d u o).
  Proof. intros. destruct (C35_array_frame str x y) as (cx & cy & ED & _). fold (xname x) (yname y) in ED. exists cx, cy. split; [exact ED|]. unfold outlier_array_64. rewrite ED. reflexivity. Qed.
  Theorem C116_binned_array_is_array : forall x y d u o, xname x <> yname y ->
    let bin_again := match a_kind x, a_kind y with ANum, ANum => [xname x; yname y] | _, _ => [] end in
    outlier_binned_array_64 fbetainc fgammaln fpsf fplogsf fppf flog fexpo pow2 fmt npq str x y d u o =
    outlier_array_64 fbetainc fgammaln fpsf fplogsf fppf flog fexpo pow2 fmt npq str x y (Some bin_again) (BOne (BNum 10)) false 1 d u o.
  Proof.
    intros x y d u o N bin_again. unfold outlier_binned_array_64, outlier_array_64. f_equal. destruct (C35_array_frame str x y) as (cx & cy & ED & Nx & Ny & _). fold (xname x) (yname y) in ED. rewrite ED.
    unfold outlier_matrix_64. replace (guess_interval_cols [(xname x, cx); (yname y, cy)]) with bin_again; [reflexivity|]. unfold bin_again, guess_interval_cols. cbn [filter map fst snd].
    destruct (c_num cx) eqn:Cx, (c_num cy) eqn:Cy; cbn [map fst].
    - destruct (proj1 Nx eq_refl) as [-> ->]. reflexivity.
    - exfalso. assert (false = true) by (apply Ny, Nx; reflexivity). discriminate.
    - exfalso. assert (false = true) by (apply Nx, Ny; reflexivity). discriminate.
    - destruct (a_kind x) eqn:A, (a_kind y) eqn:B; try reflexivity. exfalso. assert (false = true) by (apply Nx; auto). discriminate.
  Qed.
End Lib.
Print Assumptions C116_same_as_two_columns.
Print Assumptions C116_keys.
Print Assumptions C116_errors.
Print Assumptions C116_unknown_column.
Print Assumptions C116_record_order.
Print Assumptions C116_exchange.
Print Assumptions C116_both_orders.
Print Assumptions C116_arrays.
Print Assumptions C116_binned_arrays.
Print Assumptions C116_array_is_matrix.
Print Assumptions C116_binned_array_is_array.
(** a frame with two category columns and a number column, analysed with a library that returns 1/2 for every probability *)
Definition lib_run := outlier_matrices_64 (fun _ _ _ => (fdiv (ofZ 1) (ofZ 2))) (fun _ => fzero) (fun _ _ => (fdiv (ofZ 1) (ofZ 2))) (fun _ _ => (fdiv (ofZ 1) (ofZ 2))) (fun _ => fzero) (fun x => x) (fun x => x) (fun x => fmult x x) (fun _ _ => ""%string) (fun v _ => v).
Definition three_cols : frame :=
  [("a", mkCol false [CStr "p"; CStr "q"; CStr "p"; CStr "q"]); ("b", mkCol false [CStr "r"; CStr "r"; CStr "s"; CStr "s"]); ("n", mkCol true [CInt 1; CInt 2; CInt 3; CInt 4])]%string.
Definition outcome (r : res (list (string * oresult64) * list (string * list (f64 * f64)))) : res (list (string * option (nat * nat))) :=
  rmap (fun p => map (fun e => (fst e, match snd e with ONaN64 => None | OMat64 rows cols _ => Some (length rows, length cols) end)) (fst p)) r.
Example C116_hypotheses_met :
  outcome (lib_run three_cols (Some []) 1 (BOne (BNum 10)) false [] true true true) = Ok [("a:b", Some (2, 2)); ("a:n", Some (2, 4)); ("b:n", Some (2, 4))]%string%nat /\
  outcome (lib_run three_cols (Some []) 1 (BOne (BNum 10)) false [("a", "b"); ("b", "a")]%string true true true) = Ok [("a:b", Some (2, 2)); ("b:a", Some (2, 2))]%string%nat /\
  outcome (lib_run three_cols None 1 (BOne (BNum 2)) false [("a", "n")]%string true true true) = Ok [("a:n", Some (2, 2))]%string%nat /\
  outcome (lib_run three_cols (Some []) 1 (BOne (BNum 10)) false [("a", "z")]%string true true true) = Raise KeyError /\
  NoDup (keys three_cols) /\ (forall c, In c (keys three_cols) -> colon_free c).
Proof.
  split; [vm_compute; reflexivity|]. split; [vm_compute; reflexivity|]. split; [vm_compute; reflexivity|]. split; [vm_compute; reflexivity|]. split; [|intros c [<-|[<-|[<-|[]]]]; unfold colon_free; cbn; intuition discriminate].
  cbn. repeat constructor; cbn; intuition discriminate.
Qed.
