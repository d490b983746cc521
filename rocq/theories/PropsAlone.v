(** C117: phik and significance of two columns do not depend on the other columns of the frame (binary64 arithmetic, bit for bit). *)
From Coq Require Import String ZArith List Bool Lia.
Import ListNotations.
From Verif Require Import F64 Base Cells BinModel SpecBin BinProofs BinDataProofs HistModel HistProofs PhikModel SpecPhik PairMatProofs FrameProofs PhikInvProofs PhikMatProofs Chi2FModel StatsModel SigModel PhikMatFModel SpecMatF PropsChi2F PropsMatF SigMatFModel
  SpecOutMatsF PropsOutMatsF.
Open Scope list_scope.

(** * the two columns alone, after cleaning and binning *)
Lemma prep_alone : forall npq df ic bins q d out dict a b x' y',
  (let dq := dq_check_nunique_values df (intervals ic df) d in bin_data npq (fst dq) (snd dq) bins q) = Ok (out, dict) ->
  (ic = None -> NoDup (keys df)) -> (forall c, c = a \/ c = b -> In c (intervals ic df) -> supported (spec_of bins c)) ->
  a <> b -> assoc a out = Some x' -> assoc b out = Some y' ->
  exists x y dict', assoc a df = Some x /\ assoc b df = Some y /\
    (let g := [(a, x); (b, y)] in let dq := dq_check_nunique_values g (intervals ic g) d in bin_data npq (fst dq) (snd dq) bins q) = Ok ([(a, x'); (b, y')], dict').
Proof.
  intros npq df ic bins q d out dict a b x' y' HB ND S N OA OB. cbv zeta in HB. destruct (bin_data_spec _ _ _ _ _ _ _ HB) as (K & _ & _).
  assert (EX : forall c z, assoc c out = Some z -> exists w, assoc c (fst (dq_check_nunique_values df (intervals ic df) d)) = Some w).
  { intros c z A. destruct (assoc c (fst (dq_check_nunique_values df (intervals ic df) d))) as [w|] eqn:W; [exists w; reflexivity|]. apply assoc_None in W. rewrite <- K in W. apply assoc_None in W. congruence. }
  destruct (EX _ _ OA) as (x & XA). destruct (EX _ _ OB) as (y & YB). destruct (dq_form df (intervals ic df) d) as (F1 & F2 & _).
  assert (INT : forall c w, assoc c (fst (dq_check_nunique_values df (intervals ic df) d)) = Some w -> assoc c df = Some w) by (intros c w W; destruct (mem c (keys df)) eqn:M; [rewrite (F1 c M) in W; destruct (dropped _ _ _ _); [discriminate W|exact W]|destruct (F2 c M); congruence]).
  destruct (dq_pair df (intervals ic df) (intervals ic [(a, x); (b, y)]) d a b x y N (intervals_pair ic df a b x y ND N (INT _ _ XA) (INT _ _ YB)) XA YB) as (icp & DQ & DA & DB & ICP).
  destruct (bin_pair npq _ _ icp bins q out dict a b x y HB N XA YB ICP) as (x1 & y1 & dict' & P1 & P2 & BD & _).
  { intros c Hc. apply ICP in Hc. destruct Hc as [Hc Hab]. apply (S c Hab). unfold dq_check_nunique_values in Hc. cbv zeta in Hc. match type of Hc with In _ (snd (match ?l with _ => _ end)) => destruct l end; cbn [snd] in Hc; repeat (apply filter_In in Hc; destruct Hc as [Hc _]); exact Hc. }
  exists x, y, dict'. split; [exact DA|]. split; [exact DB|]. cbv zeta. rewrite DQ. cbn [fst snd]. rewrite BD. congruence.
Qed.

(** * tables of pairwise values *)
Definition grid (comp : bool) (order : list string) (vals : list (string * string * f64)) : ftable :=
  mkFT order order (map (fun a => map (fun b => fmean comp (fgroup (flong vals) a b)) order) order).
Section Table.
  Variable calc : (string * col) -> (string * col) -> res (string * string * f64).
  Hypothesis named : forall p q r, calc p q = Ok r -> fst r = (fst p, fst q).
  Variable comp : bool.
  Let G (pq : (string * col) * (string * col)) : f64 := match calc (fst pq) (snd pq) with Ok r => snd r | Raise _ => fnan end.
  Let row (pq : (string * col) * (string * col)) := (fst (fst pq), fst (snd pq), G pq).
  Lemma vals_rows : forall l vals, mapM (fun pq => calc (fst pq) (snd pq)) l = Ok vals -> vals = map row l.
  Proof.
    intros l vals H. apply mapM_mem in H. induction H as [|pq r l vals H _ IH]; [reflexivity|]. cbn [map]. rewrite <- IH. f_equal. unfold row, G. rewrite H. pose proof (named _ _ _ H) as E. destruct r as [[c0 c1] v]. cbn [fst snd] in *. congruence.
  Qed.
  Lemma group_only : forall a b l, fgroup (flong (map row l)) a b = fgroup (flong (map row (filter (matches a b) l))) a b.
  Proof.
    intros a b l. unfold fgroup, flong. induction l as [|[[n0 x0] [n1 x1]] l IH]; [reflexivity|]. cbn [filter]. change (matches a b (n0, x0, (n1, x1))) with ((String.eqb n0 a && String.eqb n1 b) || (String.eqb n1 a && String.eqb n0 b)).
    set (v := G (n0, x0, (n1, x1))). assert (RW : row (n0, x0, (n1, x1)) = (n0, n1, v)) by reflexivity.
    destruct ((n0 =? a)%string && (n1 =? b)%string) eqn:M1; destruct ((n1 =? a)%string && (n0 =? b)%string) eqn:M2; cbn [orb map]; rewrite ?RW; cbn [flat_map app filter fst snd]; rewrite ?M1, ?M2; cbn [andb]; destruct (negb (fisnan v)); cbn [map snd]; rewrite ?IH; reflexivity.
  Qed.
  Definition table (f : frame) : res ftable := let* vals := mapM (fun pq => calc (fst pq) (snd pq)) (combos f) in Ok (grid comp (keys f) vals).
  Lemma table_index : forall f t, table f = Ok t -> ft_index t = keys f.
  Proof. intros f t H. unfold table in H. destruct (mapM _ _); [|discriminate H]. injection H as <-. reflexivity. Qed.
  Lemma table_alone : forall f t a x b y, table f = Ok t -> NoDup (keys f) -> pair_of f a x b y -> exists t2, table [(a, x); (b, y)] = Ok t2 /\
    forall c c', c = a \/ c = b -> c' = a \/ c' = b -> fval t2 c c' = fval t c c'.
  Proof.
    intros f t a x b y H ND PO. pose proof (pair_ne _ _ _ _ _ ND PO) as NE. destruct (pair_in _ _ _ _ _ PO) as [IX IY]. pose proof (combos_pair _ _ _ _ _ PO) as IC. unfold table in H. destruct (mapM _ (combos f)) as [vals|] eqn:M; [|discriminate H]. cbn [rbind] in H. injection H as <-.
    assert (OKS : forall pq, In pq (combos f) -> calc (fst pq) (snd pq) = Ok (row pq)).
    { apply mapM_mem in M. intros pq I. clear - M I named. induction M as [|pq' r l vs H M IH]; [destruct I|]. destruct I as [->|I]; [|exact (IH I)]. rewrite H. f_equal. unfold row, G. rewrite H. pose proof (named _ _ _ H) as E. destruct r as [[c0 c1] v]. cbn [fst snd] in *. congruence. }
    pose proof (vals_rows _ _ M) as ->. set (g := [(a, x); (b, y)]).
    assert (DG : forall p, In p f -> In (p, p) (combos f)) by (intros p I; destruct (combos_total _ f p p I I); assumption).
    assert (CG : combos g = [((a, x), (a, x)); ((a, x), (b, y)); ((b, y), (b, y))]) by reflexivity.
    assert (SUB : forall pq, In pq (combos g) -> In pq (combos f)) by (rewrite CG; intros pq [<-|[<-|[<-|[]]]]; auto).
    assert (NG : NoDup (keys g)) by (cbn; constructor; [cbn; intuition congruence|constructor; [intros []|constructor]]).
    unfold table. rewrite (mapM_all_ok _ _ _ row (combos g)) by (intros pq I; apply OKS, SUB, I). cbn [rbind]. eexists. split; [reflexivity|]. intros c c' Hc Hc'.
    unfold grid. rewrite !fval_grid.
    assert (KF : forall c, c = a \/ c = b -> In c (keys f)) by (intros k [-> | ->]; [exact (in_map fst _ _ IX)|exact (in_map fst _ _ IY)]). assert (KG : forall c, c = a \/ c = b -> In c (keys g)) by (intros k [-> | ->]; cbn; auto).
    destruct (in_dec string_dec c (keys f)) as [_|Q]; [|exfalso; apply Q, KF, Hc]. destruct (in_dec string_dec c' (keys f)) as [_|Q]; [|exfalso; apply Q, KF, Hc'].
    destruct (in_dec string_dec c (keys g)) as [_|Q]; [|exfalso; apply Q, KG, Hc]. destruct (in_dec string_dec c' (keys g)) as [_|Q]; [|exfalso; apply Q, KG, Hc'].
    f_equal. rewrite (group_only c c' (combos g)), (group_only c c' (combos f)).
    assert (IG : In ((a, x), (b, y)) (combos g)) by (rewrite CG; cbn; auto).
    assert (SW : forall l, filter (matches b a) l = filter (matches a b) l) by (intros l; apply filter_ext; intros pq; unfold matches; rewrite orb_comm; f_equal; apply andb_comm).
    pose proof (filter_pair f (a, x) (b, y) ND IC NE) as FF. pose proof (filter_pair g (a, x) (b, y) NG IG NE) as FG. cbn [fst] in FF, FG.
    pose proof (filter_diag f (a, x) ND IX) as DA. pose proof (filter_diag g (a, x) NG (or_introl eq_refl)) as DA'. pose proof (filter_diag f (b, y) ND IY) as DB. pose proof (filter_diag g (b, y) NG (or_intror (or_introl eq_refl))) as DB'. cbn [fst] in *.
    destruct Hc as [-> | ->], Hc' as [-> | ->]; rewrite ?SW, ?FF, ?FG, ?DA, ?DA', ?DB, ?DB'; reflexivity.
  Qed.
End Table.
Lemma keys_split : forall (f : frame) l1 c l2, keys f = l1 ++ c :: l2 -> exists f1 x f2, f = f1 ++ (c, x) :: f2 /\ keys f1 = l1 /\ keys f2 = l2.
Proof.
  induction f as [|[k z] f IH]; intros l1 c l2 H; [destruct l1; discriminate H|]. destruct l1 as [|k1 l1]; cbn in H; injection H as E H.
  - subst. exists [], z, f. auto.
  - destruct (IH _ _ _ H) as (f1 & x & f2 & -> & E1 & E2). exists ((k, z) :: f1), x, f2. split; [reflexivity|]. split; [cbn; unfold keys in E1; rewrite E1, E; reflexivity|exact E2].
Qed.
Lemma keys_pair : forall (f : frame) l1 a l2 b l3, keys f = l1 ++ a :: l2 ++ b :: l3 -> exists x y, pair_of f a x b y.
Proof.
  intros f l1 a l2 b l3 H. destruct (keys_split _ _ _ _ H) as (f1 & x & f2 & -> & _ & E). destruct (keys_split _ _ _ _ E) as (f3 & y & f4 & -> & _). exists x, y, f1, f3, f4. reflexivity.
Qed.
Lemma pair_clean : forall d u o f a x b y, pair_of f a x b y -> exists x' y', pair_of (clean d u o f) a x' b y' /\ clean d u o [(a, x); (b, y)] = [(a, x'); (b, y')].
Proof. intros d u o f a x b y (l1 & l2 & l3 & ->). unfold clean. eexists _, _. split; [|reflexivity]. rewrite !map_app. cbn [map]. rewrite map_app. eexists _, _, _. reflexivity. Qed.
Lemma nodup_dq : forall df ic d, NoDup (keys df) -> NoDup (keys (fst (dq_check_nunique_values df ic d))).
Proof. intros df ic d N. unfold dq_check_nunique_values. cbv zeta. match goal with |- context [match ?l with _ => _ end] => destruct l end; [exact N|]. cbn [fst]. apply nodup_keys_filter. exact N. Qed.

Section Main.
  Variable calc : (string * col) -> (string * col) -> res (string * string * f64).
  Hypothesis named : forall p q r, calc p q = Ok r -> fst r = (fst p, fst q).
  Variables (comp : bool) (npq : list f64 -> Z -> list f64).
  (** clean, bin, compute the table: what phik_matrix and significance_matrix do *)
  Definition whole (df : frame) (ic : option (list string)) (bins : bins_arg) (q d u o : bool) : res ftable :=
    let dq := dq_check_nunique_values df (intervals ic df) d in
    let* bd := bin_data npq (fst dq) (snd dq) bins q in table calc comp (clean d u o (fst bd)).
  Lemma whole_alone : forall df ic bins q d u o t l1 a l2 b l3, whole df ic bins q d u o = Ok t -> NoDup (keys df) ->
    (forall c, c = a \/ c = b -> In c (intervals ic df) -> supported (spec_of bins c)) -> ft_index t = l1 ++ a :: l2 ++ b :: l3 ->
    exists x y t2, assoc a df = Some x /\ assoc b df = Some y /\ whole [(a, x); (b, y)] ic bins q d u o = Ok t2 /\
      forall c c', c = a \/ c = b -> c' = a \/ c' = b -> fval t2 c c' = fval t c c'.
  Proof.
    intros df ic bins q d u o t l1 a l2 b l3 H ND S IX. unfold whole in H. cbv zeta in H. destruct (bin_data npq _ _ bins q) as [[out dict]|] eqn:B; [|discriminate H]. cbn [rbind fst] in H.
    destruct (bin_data_spec _ _ _ _ _ _ _ B) as (K & _). assert (NO : NoDup (keys out)) by (rewrite K; apply nodup_dq, ND).
    assert (KI : keys out = l1 ++ a :: l2 ++ b :: l3) by (rewrite <- IX, (table_index _ _ _ _ H); symmetry; apply keys_clean).
    destruct (keys_pair _ _ _ _ _ _ KI) as (x' & y' & PO). pose proof (pair_ne _ _ _ _ _ NO PO) as NE. destruct (pair_in _ _ _ _ _ PO) as [I1 I2].
    destruct (prep_alone npq df ic bins q d out dict a b x' y' B (fun _ => ND) S NE (assoc_NoDup _ _ _ _ NO I1) (assoc_NoDup _ _ _ _ NO I2)) as (x & y & dict' & XA & YB & E).
    destruct (pair_clean d u o out a x' b y' PO) as (cx & cy & PC & CE). assert (NC : NoDup (keys (clean d u o out))) by (rewrite keys_clean; exact NO).
    destruct (table_alone calc named comp _ _ _ _ _ _ H NC PC) as (t2 & T2 & V). exists x, y, t2. split; [exact XA|]. split; [exact YB|]. split; [|exact V].
    unfold whole. cbv zeta in E |- *. rewrite E. cbn [rbind fst]. rewrite CE. exact T2.
  Qed.
End Main.

(** phik_matrix: the entries of two columns are those of the two columns alone, bit for bit. [l1], [l2], [l3]: the other columns of the result *)
Theorem C117_phik : forall add_up chi2_rho comp npq df ic bins q noise d u o t l1 a l2 b l3,
  phik_matrix_64 add_up chi2_rho comp npq df ic bins q noise d u o = Ok t -> NoDup (keys df) ->
  (forall c, c = a \/ c = b -> In c (intervals ic df) -> supported (spec_of bins c)) -> ft_index t = l1 ++ a :: l2 ++ b :: l3 ->
  exists x y t2, assoc a df = Some x /\ assoc b df = Some y /\ phik_matrix_64 add_up chi2_rho comp npq [(a, x); (b, y)] ic bins q noise d u o = Ok t2 /\
    forall c c', c = a \/ c = b -> c' = a \/ c' = b -> fval t2 c c' = fval t c c'.
Proof.
  intros add_up chi2_rho comp npq df ic bins q noise d u o t l1 a l2 b l3 H ND S IX.
  assert (NM : forall p q r, calc_phik_64 add_up chi2_rho noise p q = Ok r -> fst r = (fst p, fst q)).
  { intros [c0 x] [c1 y] r E. unfold calc_phik_64 in E. destruct (String.eqb c0 c1); [injection E as <-; reflexivity|]. destruct (_ || _); [injection E as <-; reflexivity|]. destruct (phik_from_hist2d_64 _ _ _ _); [|discriminate E]. injection E as <-. reflexivity. }
  assert (EQ : forall f, phik_matrix_64 add_up chi2_rho comp npq f ic bins q noise d u o = whole (calc_phik_64 add_up chi2_rho noise) comp npq f ic bins q d u o).
  { intros f. unfold phik_matrix_64, whole. fold (intervals ic f). destruct (dq_check_nunique_values f (intervals ic f) d) as [g ic']. reflexivity. }
  rewrite EQ in H. destruct (whole_alone _ NM comp npq df ic bins q d u o t l1 a l2 b l3 H ND S IX) as (x & y & t2 & A & B & W & V). exists x, y, t2. rewrite EQ. auto.
Qed.
(** significance_matrix likewise, if the tables simulated for the pair are the same *)
Theorem C117_significance : forall percentile add_up add_mean flog fppf fsf fnsf ffit comp npq df ic s lam sims bins d u o t l1 a l2 b l3,
  signif_matrix_64 percentile add_up add_mean flog fppf fsf fnsf ffit comp npq df ic s lam sims bins d u o = Ok t -> NoDup (keys df) ->
  (forall c, c = a \/ c = b -> In c (intervals ic df) -> supported (spec_of bins c)) -> ft_index t = l1 ++ a :: l2 ++ b :: l3 ->
  exists x y t2, assoc a df = Some x /\ assoc b df = Some y /\ signif_matrix_64 percentile add_up add_mean flog fppf fsf fnsf ffit comp npq [(a, x); (b, y)] ic s lam sims bins d u o = Ok t2 /\
    forall c c', c = a \/ c = b -> c' = a \/ c' = b -> fval t2 c c' = fval t c c'.
Proof.
  intros percentile add_up add_mean flog fppf fsf fnsf ffit comp npq df ic s lam sims bins d u o t l1 a l2 b l3 H ND S IX. set (calc := calc_signif_64 percentile add_up add_mean flog fppf fsf fnsf ffit s lam sims).
  assert (NM : forall p q r, calc p q = Ok r -> fst r = (fst p, fst q)).
  { intros [c0 x] [c1 y] r E. unfold calc, calc_signif_64 in E. destruct (_ || _); [injection E as <-; reflexivity|]. destruct (signif_tables64 _ _ _ _ _ _ _ _ _ _ _ _); [|discriminate E]. injection E as <-. reflexivity. }
  assert (EQ : forall f, signif_matrix_64 percentile add_up add_mean flog fppf fsf fnsf ffit comp npq f ic s lam sims bins d u o = whole calc comp npq f ic bins false d u o).
  { intros f. unfold signif_matrix_64, whole. fold (intervals ic f). destruct (dq_check_nunique_values f (intervals ic f) d) as [g ic']. cbv zeta. cbn [fst snd]. destruct (bin_data npq g ic' bins false) as [[out dict]|]; [|reflexivity]. cbn [rbind fst].
    unfold signif_rebinned_64, table. fold calc. destruct (mapM _ (combos (clean d u o out))) as [vals|] eqn:M; [|reflexivity]. cbn [rbind]. destruct vals as [|v vals]; [|reflexivity]. destruct (clean d u o out) as [|p f']; [reflexivity|]. cbn [combos map app mapM] in M. destruct (calc _ _); [|discriminate M]. cbn [rbind] in M. destruct (mapM _ _); discriminate M. }
  rewrite EQ in H. destruct (whole_alone _ NM comp npq df ic bins false d u o t l1 a l2 b l3 H ND S IX) as (x & y & t2 & A & B & W & V). exists x, y, t2. rewrite EQ. auto.
Qed.
(** so that two frames with the same columns a and b, in this order, agree on them, whatever else they contain *)
Theorem C117_frames : forall add_up chi2_rho comp npq df df' ic bins q noise d u o t t' a b k1 k2 k3 l1 l2 l3,
  phik_matrix_64 add_up chi2_rho comp npq df ic bins q noise d u o = Ok t -> phik_matrix_64 add_up chi2_rho comp npq df' ic bins q noise d u o = Ok t' ->
  NoDup (keys df) -> NoDup (keys df') -> assoc a df = assoc a df' -> assoc b df = assoc b df' ->
  (forall c, c = a \/ c = b -> supported (spec_of bins c)) -> ft_index t = k1 ++ a :: k2 ++ b :: k3 -> ft_index t' = l1 ++ a :: l2 ++ b :: l3 ->
  forall c c', c = a \/ c = b -> c' = a \/ c' = b -> fval t c c' = fval t' c c'.
Proof.
  intros add_up chi2_rho comp npq df df' ic bins q noise d u o t t' a b k1 k2 k3 l1 l2 l3 H H' ND ND' EA EB S I I' c c' Hc Hc'.
  destruct (C117_phik _ _ _ _ _ _ _ _ _ _ _ _ _ _ _ _ _ _ H ND (fun c Q _ => S c Q) I) as (x & y & t2 & A & B & T2 & V).
  destruct (C117_phik _ _ _ _ _ _ _ _ _ _ _ _ _ _ _ _ _ _ H' ND' (fun c Q _ => S c Q) I') as (x' & y' & t3 & A' & B' & T3 & V').
  assert (x' = x) by congruence. assert (y' = y) by congruence. subst. assert (t3 = t2) by congruence. subst. rewrite <- V, <- V' by assumption. reflexivity.
Qed.
(** the restriction on the bins argument is needed: with an entry that is neither a number nor a list (here None, for b) the edges of the column before are used:
    with column a in the frame there is an answer for b and c, without it an exception *)
Definition f117 : frame := [("a", mkCol true [CInt 0; CInt 1; CInt 2; CInt 1; CInt 2]); ("b", mkCol true [CInt 1; CInt 1; CInt 2; CInt 2; CInt 2]); ("c", mkCol false [CStr "2"; CStr "3"; CStr "1"; CStr "3"; CStr "3"]); ("k", mkCol false [CStr "z"; CStr "z"; CStr "z"; CStr "z"; CStr "z"])]%string%Z.
Definition bins117 (s : bspec) : bins_arg := BDict [("a", BEdges [ofZ (-1); ofZ 0; ofZ 1; ofZ 2]); ("b", s)]%string.
Definition qs117 (l : list f64) (n : Z) : list f64 := [].
Theorem C117_unsupported_refuted : NoDup (keys f117) /\
  match phik_matrix_64 in_turn square_rho true qs117 f117 None (bins117 BOther) false false true true true with Ok t => ft_index t = ["a"; "b"; "c"] /\ fisnan (fval t "b" "c") = false | Raise _ => False end%string /\
  phik_matrix_64 in_turn square_rho true qs117 [nth 1 f117 (""%string, mkCol false []); nth 2 f117 (""%string, mkCol false [])] None (bins117 BOther) false false true true true = Raise UnboundLocalError.
Proof. split; [repeat constructor; cbn; intuition discriminate|]. split; [vm_compute; split; reflexivity|vm_compute; reflexivity]. Qed.
Example C117_hypotheses_met : NoDup (keys f117) /\ (forall c, c = "b" \/ c = "c" -> In c (intervals None f117) -> supported (spec_of (bins117 (BNum 2)) c))%string /\
  match phik_matrix_64 in_turn square_rho true qs117 f117 None (bins117 (BNum 2)) false false true true true with Ok t => ft_index t = (["a"] ++ "b" :: [] ++ "c" :: [])%list /\ fisnan (fval t "b" "c") = false | Raise _ => False end%string.
Proof. split; [repeat constructor; cbn; intuition discriminate|]. split; [|vm_compute; split; reflexivity]. intros c [-> | ->] H; [exact I|]. vm_compute in H. intuition discriminate. Qed.
Print Assumptions C117_unsupported_refuted.
Print Assumptions C117_phik.
Print Assumptions C117_significance.
