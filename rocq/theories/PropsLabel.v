(** C98: column labels that are numbers, and repeated labels. *)
From Coq Require Import String ZArith List Bool Reals Lia Sorting.Sorted.
From Verif Require Import F64 Base Cells BinModel HistModel RSum StatsModel BivModel Num PhikModel LabelModel LabelProofs SpecLabel HistProofs OverviewProofs BinDataProofs PhikInvProofs PropsHist.
Import ListNotations.
Open Scope list_scope.

Lemma selects_filter : forall (A : Type) (P : A -> Prop) (b : A -> bool) l, (forall a, In a l -> (b a = true <-> P a)) -> selects P l (filter b l).
Proof.
  intros A P b l. induction l as [|a l IH]; intros H; [constructor|]. simpl.
  assert (Q : selects P l (filter b l)) by (apply IH; intros x I; apply H; right; exact I).
  specialize (H a (or_introl eq_refl)). destruct (b a); constructor; try exact Q; [apply H; reflexivity|].
  intros C. apply H in C. discriminate.
Qed.
Lemma selects_all : forall (A : Type) (P : A -> Prop) l, (forall a, In a l -> P a) -> selects P l l.
Proof. intros A P l. induction l as [|a l IH]; intros H; [constructor|]. constructor; [apply H; left; reflexivity|apply IH; intros x I; apply H; right; exact I]. Qed.
Lemma selects_In : forall (A : Type) (P : A -> Prop) l g, selects P l g -> forall a, In a g <-> In a l /\ P a.
Proof.
  intros A P l g H. induction H as [|a l g Ha H IH|a l g Ha H IH]; intros x; simpl.
  - tauto.
  - rewrite IH. intuition congruence.
  - rewrite IH. intuition congruence.
Qed.
Lemma filter_and : forall (A : Type) (p q : A -> bool) l, filter q (filter p l) = filter (fun a => p a && q a) l.
Proof. intros A p q l. induction l as [|a l IH]; [reflexivity|]. simpl. destruct (p a); simpl; [destruct (q a); rewrite IH; reflexivity|exact IH]. Qed.
Lemma in_labels : forall (B : Type) (f : list (label * B)) a, In a (labels f) <-> exists c, In (a, c) f.
Proof.
  intros B f a. unfold labels. rewrite in_map_iff. split; [intros ([b c] & <- & H); exists c; exact H|intros (c & H); exists (a, c); split; [reflexivity|exact H]].
Qed.

(** What the check of the columns does, for any labels, any interval columns, any contents. *)
Theorem C98_check : forall f ic dropna,
  match dq_check_l f ic dropna with
  | Ok (g, ic', w) => ~ mixed ic f /\ NoDup (labels f) /\ ~ numbered_trouble ic dropna f /\
      selects (kept ic dropna) f g /\ selects (fun a => In a (labels g)) ic ic' /\
      (forall s n, In (WFew s n) w <-> exists c, In (LStr s, c) f /\ nunique c = n /\ ~ kept ic dropna (LStr s, c)) /\
      (forall s n, In (WMany s n) w <-> exists c, In (LStr s, c) f /\ nunique c = n /\ large ic (LStr s, c))
  | Raise TypeError => mixed ic f
  | Raise ValueError => ~ mixed ic f /\ (~ NoDup (labels f) \/ numbered_trouble ic dropna f)
  | Raise _ => False
  end.
Proof.
  intros f ic dropna. unfold dq_check_l. set (ic0 := filter (fun c => lmem c (labels f)) ic).
  assert (I0 : forall a, In a ic0 <-> In a ic /\ In a (labels f)) by (intros a; unfold ic0; rewrite filter_In, lmem_In; reflexivity).
  set (oth := filter (fun c => negb (lmem c ic0)) (labels f)).
  assert (O0 : forall a, In a oth <-> In a (labels f) /\ ~ In a ic).
  { intros a. unfold oth. rewrite filter_In, negb_true_iff, lmem_false, I0. tauto. }
  assert (MX : mixed ic f <-> (exists z, In (LInt z) oth) /\ (exists s, In (LStr s) oth)).
  { unfold mixed. split; intros [(z & A) (s & B)]; (split; [exists z|exists s]); apply O0; assumption. }
  assert (SP : forall a, In a (labels f) -> In a ic0 \/ In a oth).
  { intros a H. destruct (in_dec label_dec a ic) as [E|E]; [left; apply I0|right; apply O0]; split; assumption. }
  assert (DUP : forall a, In a (labels f) -> col_nunique f a = Raise ValueError -> ~ NoDup (labels f)).
  { intros a H E N. apply in_labels in H. destruct H as (c & H). rewrite (nunique_unique f a c N H) in E. discriminate. }
  assert (GET : forall a n, col_nunique f a = Ok n -> exists c, In (a, c) f /\ nunique c = n).
  { intros a n E. destruct (col_nunique_cases f a) as [(c & E' & Fl)|E']; [|congruence]. exists c. split; [|congruence].
    assert (X : In (a, c) [(a, c)]) by (left; reflexivity). rewrite <- Fl in X. apply filter_In in X. apply X. }
  assert (NK1 : forall a c, In a ic -> (nunique c < 2)%nat -> ~ kept ic dropna (a, c)).
  { intros a c H E [K|(K & _ & K')]; [simpl in K; lia|apply K'; exact H]. }
  assert (NK2 : forall a c, (Nat.eqb (nunique c) 0 || (Nat.eqb (nunique c) 1 && dropna)) = true -> ~ kept ic dropna (a, c)).
  { intros a c E K. apply orb_true_iff in E. unfold kept in K. cbn [snd] in K. destruct E as [E|E]; [apply Nat.eqb_eq in E; lia|].
    apply andb_true_iff in E. destruct E as [E ->]. apply Nat.eqb_eq in E. destruct K as [K|(_ & K & _)]; [lia|discriminate]. }
  destruct (lsorted_spec oth) as [(E1 & A1 & B1)|(k & E1 & Hk & A1)].
  { rewrite E1. cbn [rbind]. apply MX. split; assumption. }
  assert (NM : ~ mixed ic f) by (intros M; apply MX in M; destruct M as [M1 M2]; exact (A1 M1 M2)).
  rewrite E1. cbn [rbind]. destruct (many_spec f k) as [(w1 & E2 & A2 & B2)|(E2 & a & Ha & A2)].
  2:{ rewrite E2. cbn [rbind]. split; [exact NM|]. apply Hk, O0 in Ha. destruct A2 as [A2|(z & n & -> & A2 & B2)]; [left; exact (DUP a (proj1 Ha) A2)|].
      right. destruct (GET _ _ A2) as (c & Hc & Ec). exists z, c. split; [exact Hc|right]. split; [cbn [snd]; lia|apply Ha]. }
  rewrite E2. cbn [rbind]. destruct (few_spec f (fun n => Nat.ltb n 2) ic0) as [(d1 & w2 & E3 & A3 & B3 & C3)|(E3 & a & Ha & A3)].
  2:{ rewrite E3. cbn [rbind]. split; [exact NM|]. apply I0 in Ha. destruct A3 as [A3|(z & n & -> & A3 & B3)]; [left; exact (DUP a (proj2 Ha) A3)|].
      right. destruct (GET _ _ A3) as (c & Hc & Ec). exists z, c. split; [exact Hc|left]. apply NK1; [apply Ha|]. apply Nat.ltb_lt in B3. lia. }
  rewrite E3. cbn [rbind]. destruct (few_spec f (fun n => Nat.eqb n 0 || (Nat.eqb n 1 && dropna)) k) as [(d2 & w3 & E4 & A4 & B4 & C4)|(E4 & a & Ha & A4)].
  2:{ rewrite E4. cbn [rbind]. split; [exact NM|]. apply Hk, O0 in Ha. destruct A4 as [A4|(z & n & -> & A4 & B4)]; [left; exact (DUP a (proj1 Ha) A4)|].
      right. destruct (GET _ _ A4) as (c & Hc & Ec). exists z, c. split; [exact Hc|left]. apply NK2. rewrite Ec. exact B4. }
  rewrite E4. cbn [rbind fst snd].
  assert (ND : NoDup (labels f)).
  { apply nodup_of_nunique. intros a H. destruct (SP a H) as [H'|H']; [destruct (A3 a H') as (n & X & _)|apply Hk in H'; destruct (A4 a H') as (n & X & _)]; congruence. }
  assert (U : forall a c, In (a, c) f -> col_nunique f a = Ok (nunique c)) by (intros a c H; exact (nunique_unique f a c ND H)).
  assert (LAB : forall a c, In (a, c) f -> In a (labels f)) by (intros a c H; apply in_labels; exists c; exact H).
  assert (DR : forall a c, In (a, c) f -> (In a (d1 ++ d2) <-> ~ kept ic dropna (a, c))).
  { intros a c H. rewrite in_app_iff, B3, B4. split.
    - intros [(X & n & Y & Z)|(X & n & Y & Z)]; rewrite (U a c H) in Y; injection Y as <-.
      + apply NK1; [apply I0; exact X|apply Nat.ltb_lt; exact Z].
      + apply NK2. exact Z.
    - intros K. destruct (in_dec label_dec a ic) as [E|E].
      + left. split; [apply I0; split; [exact E|exact (LAB a c H)]|]. exists (nunique c). split; [exact (U a c H)|]. apply Nat.ltb_lt.
        destruct (Nat.lt_ge_cases (nunique c) 2) as [L|L]; [exact L|]. exfalso. apply K. left. exact L.
      + right. split; [apply Hk, O0; split; [exact (LAB a c H)|exact E]|]. exists (nunique c). split; [exact (U a c H)|].
        destruct (nunique c) as [|[|n]] eqn:En; [reflexivity| |exfalso; apply K; left; simpl; lia].
        destruct dropna; [reflexivity|]. exfalso. apply K. right. simpl. rewrite En. auto. }
  assert (MN : forall x, In x w1 <-> exists s n, x = WMany s n /\ In (LStr s) k /\ col_nunique f (LStr s) = Ok n /\ (1000 < n)%nat) by exact B2.
  assert (FW : forall s n, In (WFew s n) (w1 ++ w2 ++ w3) <-> exists c, In (LStr s, c) f /\ nunique c = n /\ ~ kept ic dropna (LStr s, c)).
  { intros s n. rewrite !in_app_iff, MN, C3, C4. split.
    - intros [(s' & n' & X & _)|[(s' & n' & X & Y & Z & W)|(s' & n' & X & Y & Z & W)]]; [discriminate| |]; injection X as <- <-; destruct (GET _ _ Z) as (c & Hc & Ec);
        exists c; (split; [exact Hc|]); (split; [exact Ec|]); apply (DR _ _ Hc); rewrite in_app_iff, B3, B4; [left|right]; (split; [exact Y|]); exists n; split; assumption.
    - intros (c & Hc & Ec & K). right. apply (DR _ _ Hc) in K. rewrite in_app_iff, B3, B4 in K. destruct K as [(X & m & Y & Z)|(X & m & Y & Z)];
        [left|right]; exists s, m; (split; [rewrite (U _ _ Hc) in Y; injection Y as <-; rewrite Ec; reflexivity|]); repeat split; assumption. }
  assert (MW : forall s n, In (WMany s n) (w1 ++ w2 ++ w3) <-> exists c, In (LStr s, c) f /\ nunique c = n /\ large ic (LStr s, c)).
  { intros s n. rewrite !in_app_iff, MN, C3, C4. split.
    - intros [(s' & n' & X & Y & Z & W)|[(s' & n' & X & _)|(s' & n' & X & _)]]; [|discriminate|discriminate]. injection X as <- <-. destruct (GET _ _ Z) as (c & Hc & Ec).
      exists c. split; [exact Hc|]. split; [exact Ec|]. split; [cbn [snd]; lia|]. apply Hk, O0 in Y. apply Y.
    - intros (c & Hc & Ec & K1 & K2). left. exists s, n. split; [reflexivity|]. split; [apply Hk, O0; split; [exact (LAB _ _ Hc)|exact K2]|].
      split; [rewrite (U _ _ Hc), Ec; reflexivity|cbn [snd] in K1; lia]. }
  assert (NT : ~ numbered_trouble ic dropna f).
  { intros (z & c & Hc & [K|[K1 K2]]).
    - apply (DR _ _ Hc) in K. rewrite in_app_iff, B3, B4 in K. destruct K as [(X & n & Y & Z)|(X & n & Y & Z)]; [destruct (A3 _ X) as (m & P & Q)|destruct (A4 _ X) as (m & P & Q)];
        rewrite P in Y; injection Y as ->; destruct (Q Z); discriminate.
    - assert (X : In (LInt z) k) by (apply Hk, O0; split; [exact (LAB _ _ Hc)|exact K2]). destruct (A2 _ X) as (m & P & Q). rewrite (U _ _ Hc) in P. injection P as <-.
      cbn [snd] in K1. destruct (Q K1). discriminate. }
  assert (RES : forall g ic', (match d1 ++ d2 with [] => (f, ic0) | _ => (filter (fun p => negb (lmem (fst p) (d1 ++ d2))) f, filter (fun c => negb (lmem c (d1 ++ d2))) ic0) end) = (g, ic') ->
     selects (kept ic dropna) f g /\ selects (fun a => In a (labels g)) ic ic').
  { assert (KD : forall p, In p f -> (negb (lmem (fst p) (d1 ++ d2)) = true <-> kept ic dropna p)).
    { intros [a c] H. cbn [fst]. rewrite negb_true_iff, lmem_false, (DR a c H). destruct (in_dec label_dec a ic) as [E|E]; destruct dropna; unfold kept; cbn [fst snd];
      destruct (le_dec 2 (nunique c)); destruct (Nat.eq_dec (nunique c) 1); intuition congruence. }
    assert (X : forall g, selects (kept ic dropna) f g -> forall b, (forall a, In a ic -> (b a = true <-> In a (labels g))) -> selects (fun a => In a (labels g)) ic (filter b ic)).
    { intros g _ b Hb. apply selects_filter. exact Hb. }
    intros g ic' E. destruct (d1 ++ d2) as [|x xs] eqn:ED.
    - injection E as <- <-. assert (S1 : selects (kept ic dropna) f f) by (apply selects_all; intros p H; apply KD; [exact H|reflexivity]).
      split; [exact S1|]. apply (X f S1). intros a _. apply lmem_In.
    - apply pair_equal_spec in E. destruct E as [<- <-]. assert (S1 := selects_filter _ (kept ic dropna) _ f KD). split; [exact S1|].
      unfold ic0. rewrite filter_and.
      apply (X _ S1). intros a _. rewrite andb_true_iff, lmem_In, negb_true_iff, lmem_false, !in_labels. split.
      * intros [(c & Hc) N]. exists c. apply filter_In. split; [exact Hc|]. cbn [fst]. rewrite negb_true_iff, lmem_false. exact N.
      * intros (c & Hc). apply filter_In in Hc. destruct Hc as [Hc N]. cbn [fst] in N. rewrite negb_true_iff, lmem_false in N. split; [exists c; exact Hc|exact N]. }
  destruct (match d1 ++ d2 with [] => (f, ic0) | _ => _ end) as [g ic'] eqn:ER. destruct (RES g ic' eq_refl) as [R1 R2].
  repeat (split; [assumption|]). assumption.
Qed.
Print Assumptions C98_check.

(** Renaming the columns *)
Section Rename.
Variable s : string -> label.
Hypothesis inj : forall a b, s a = s b -> a = b.
Lemma s_eqb : forall a b, label_eqb (s a) (s b) = String.eqb a b.
Proof. intros a b. destruct (String.eqb_spec a b) as [-> |N]; [apply label_eqb_refl|]. apply label_eqb_false. intros E. apply N, inj, E. Qed.
Lemma r_labels : forall (B : Type) (f : list (string * B)), labels (relabel s f) = map s (keys f).
Proof. intros B f. unfold labels, relabel, keys. rewrite !map_map. reflexivity. Qed.
Lemma r_mem : forall a l, lmem (s a) (map s l) = mem a l.
Proof. intros a l. unfold lmem, mem. induction l as [|b l IH]; [reflexivity|]. cbn [map existsb]. rewrite s_eqb, IH. reflexivity. Qed.
Lemma r_in : forall a l, In (s a) (map s l) <-> In a l.
Proof. intros a l. rewrite in_map_iff. split; [intros (b & E & H); rewrite <- (inj _ _ E); exact H|intros H; exists a; split; [reflexivity|exact H]]. Qed.
Lemma r_assoc : forall (B : Type) a (f : list (string * B)), lassoc (s a) (relabel s f) = assoc a f.
Proof. intros B a f. induction f as [|[b c] f IH]; [reflexivity|]. simpl. rewrite s_eqb, IH. reflexivity. Qed.
Lemma r_set : forall (B : Type) a (b : B) (f : list (string * B)), lset (s a) b (relabel s f) = relabel s (set_assoc a b f).
Proof. intros B a b f. induction f as [|[k c] f IH]; [reflexivity|]. simpl. rewrite s_eqb. destruct (String.eqb a k); simpl; [reflexivity|]. rewrite IH. reflexivity. Qed.
Lemma r_nodup : forall l, NoDup (map s l) <-> NoDup l.
Proof.
  intros l. induction l as [|a l IH]; [split; constructor|]. simpl. rewrite !NoDup_cons_iff, IH, r_in. reflexivity.
Qed.
Lemma r_combos : forall (A B : Type) (g : A -> B) l, combos (map g l) = map (fun p => (g (fst p), g (snd p))) (combos l).
Proof. intros A B g l. induction l as [|a l IH]; [reflexivity|]. cbn [map combos]. rewrite map_app, IH. f_equal. cbn [map]. f_equal. rewrite !map_map. reflexivity. Qed.
Lemma in_combos : forall (A : Type) (l : list A) p, In p (combos l) -> In (fst p) l /\ In (snd p) l.
Proof.
  intros A l. induction l as [|a l IH]; intros p H; [destruct H|]. cbn [combos] in H. apply in_app_iff in H. destruct H as [H|H].
  - apply in_map_iff in H. destruct H as (b & <- & H). split; [left; reflexivity|exact H].
  - destruct (IH p H). split; right; assumption.
Qed.
Lemma mapM_map : forall (A B C D : Type) (g : A -> B) (F : B -> res C) (G : A -> res D) (h : D -> C) l, (forall a, In a l -> F (g a) = rmap h (G a)) ->
  mapM F (map g l) = rmap (map h) (mapM G l).
Proof.
  intros A B C D g F G h l. induction l as [|a l IH]; intros H; [reflexivity|]. cbn [map mapM]. rewrite (H a (or_introl eq_refl)), IH by (intros x I; apply H; right; exact I).
  destruct (G a); [|reflexivity]. cbn [rmap rbind]. destruct (mapM G l); reflexivity.
Qed.
Definition rv (v : string * string * num) : label * label * num := (s (fst (fst v)), s (snd (fst v)), snd v).
Lemma r_calc : forall L noise f p q, NoDup (keys f) -> In p f -> In q f ->
  calc_phik_l L noise (relabel s f) (s (fst p)) (s (fst q)) = rmap rv (calc_phik L noise p q).
Proof.
  intros L noise f [a x] [b y] ND Hp Hq. unfold calc_phik_l, calc_phik. cbn [fst]. rewrite s_eqb. destruct (String.eqb a b); [reflexivity|].
  assert (ND' : NoDup (labels (relabel s f))) by (rewrite r_labels; apply r_nodup; exact ND).
  rewrite (filter_unique _ _ (s a) x ND'), (filter_unique _ _ (s b) y ND').
  - destruct (is01 _ || is01 _); [reflexivity|]. destruct (phik_from_hist2d _ _ _); reflexivity.
  - apply in_map_iff. exists (b, y). split; [reflexivity|exact Hq].
  - apply in_map_iff. exists (a, x). split; [reflexivity|exact Hp].
Qed.
Lemma r_entry : forall vals a b, lentry (map rv vals) (s a) (s b) = tval (overview vals) a b.
Proof.
  intros vals a b. rewrite tval_overview. unfold lentry. f_equal. unfold lgroup, group, long_rows.
  assert (X : flat_map (fun v => let '(a0, b0, x) := v in [(a0, b0, x); (b0, a0, x)]) (map rv vals) = map rv (flat_map (fun v => let '(a0, b0, x) := v in [(a0, b0, x); (b0, a0, x)]) vals)).
  { induction vals as [|[[u v] x] l IH]; [reflexivity|]. cbn. f_equal. f_equal. exact IH. }
  rewrite X. clear X. induction (flat_map _ vals) as [|[[u v] x] l IH]; [reflexivity|]. cbn [map filter fst snd rv]. rewrite !s_eqb. destruct (_ && _ && _); cbn [map]; rewrite IH; reflexivity.
Qed.
Lemma r_clean : forall d u o f, lclean d u o (relabel s f) = relabel s (clean d u o f).
Proof. intros. unfold lclean, relabel, clean. rewrite !map_map. reflexivity. Qed.
Lemma r_rebinned : forall L f noise d u o, NoDup (keys f) ->
  phik_rebinned_l L (relabel s f) noise d u o = rmap (relabel_table s) (fst (phik_from_rebinned_df L f noise d u o)).
Proof.
  intros L f noise d u o ND. unfold phik_rebinned_l, phik_from_rebinned_df. cbn [fst]. rewrite r_clean. set (g := clean d u o f).
  assert (NG : NoDup (keys g)) by (unfold g, clean, keys; rewrite map_map; exact ND). rewrite r_labels.
  assert (MM : mapM (fun pq => calc_phik_l L noise (relabel s g) (fst pq) (snd pq)) (combos (map s (keys g))) =
    rmap (map rv) (mapM (fun pq => calc_phik L noise (fst pq) (snd pq)) (combos g))).
  { unfold keys. rewrite map_map, r_combos. apply mapM_map. intros [p q] H. cbn [fst snd]. apply in_combos in H. apply (r_calc L noise g p q NG); apply H. }
  rewrite MM. destruct (mapM (fun pq => calc_phik L noise (fst pq) (snd pq)) (combos g)) as [vals|e] eqn:EM; [|reflexivity].
  cbn [rbind rmap]. f_equal. destruct vals as [|v vals'] eqn:EV.
  - destruct g as [|p g']; [reflexivity|]. cbn [combos map app mapM] in EM. destruct (calc_phik L noise (fst (p, p)) (snd (p, p))); [|discriminate]. cbn [rbind] in EM.
    destruct (mapM _ _); discriminate.
  - unfold relabel_table, reindex. cbn [t_index t_columns t_cells]. f_equal. rewrite map_map. apply map_ext. intros a. rewrite map_map. apply map_ext. intros b.
    apply (r_entry (v :: vals') a b).
Qed.
Lemma r_bin_cols : forall npq data cols bins q xb acc dict,
  bin_cols_l npq (relabel s data) (map s cols) (relabel_bins s bins) q xb (relabel s acc) = rmap (fun r => relabel s (fst r)) (bin_cols npq data cols bins q xb acc dict).
Proof.
  intros npq data cols bins q. induction cols as [|c cols IH]; intros xb acc dict; [reflexivity|]. cbn [map bin_cols_l bin_cols]. rewrite r_assoc.
  destruct (assoc c data) as [column|]; [|reflexivity]. destruct (mapM to_float (c_cells column)) as [arr|e]; [|reflexivity]. cbn [rbind].
  assert (X : forall xb', match xb' with None => Raise UnboundLocalError | Some edges => bin_cols_l npq (relabel s data) (map s cols) (relabel_bins s bins) q xb' (lset (s c) (mkCol false (fst (bin_array arr edges))) (relabel s acc)) end =
     rmap (fun r => relabel s (fst r)) (match xb' with None => Raise UnboundLocalError | Some edges => let (b, ls) := bin_array arr edges in bin_cols npq data cols bins q xb' (set_assoc c (mkCol false b) acc) (dict_set c ls dict) end)).
  { intros [edges|]; [|reflexivity]. destruct (bin_array arr edges) as [b ls]. cbn [fst]. rewrite r_set. apply IH. }
  destruct bins as [sp|dd]; cbn [relabel_bins].
  - destruct sp as [n|l|]; [|exact (X xb)|exact (X xb)]. destruct (bin_edges npq arr n q) as [ee|]; [|reflexivity]. cbn [rmap rbind]. exact (X (Some ee)).
  - rewrite r_assoc. destruct (assoc c dd) as [[n|l|]|]; [|exact (X (Some l))|exact (X xb)|reflexivity]. destruct (bin_edges npq arr n q) as [ee|]; [|reflexivity]. cbn [rmap rbind]. exact (X (Some ee)).
Qed.
Lemma r_bin_data : forall npq data cols bins q,
  bin_data_l npq (relabel s data) (map s cols) (relabel_bins s bins) q = rmap (fun r => relabel s (fst r)) (bin_data npq data cols bins q).
Proof.
  intros npq data cols bins q. destruct bins as [sp|dd].
  - destruct sp as [n|l|]; cbn [relabel_bins bin_data_l bin_data]; apply (r_bin_cols npq data cols (BOne _) q _ data []).
  - cbn [relabel_bins bin_data_l bin_data]. rewrite r_labels.
    assert (X : forallb (fun c => lmem c (map s (keys dd))) (map s cols) = forallb (fun c => mem c (keys dd)) cols).
    { induction cols as [|c l IH]; [reflexivity|]. cbn [map forallb]. rewrite r_mem, IH. reflexivity. }
    rewrite X. destruct (forallb _ cols); [|reflexivity]. apply (r_bin_cols npq data cols (BDict dd) q None data []).
Qed.
End Rename.

Lemma selects_unique : forall (A : Type) (P Q : A -> Prop) l g h, (forall a, In a l -> (P a <-> Q a)) -> selects P l g -> selects Q l h -> g = h.
Proof.
  intros A P Q l g h E H. revert h E. induction H as [|a l g Ha H IH|a l g Ha H IH]; intros h E K; inversion K; subst; try reflexivity;
    try (f_equal; apply IH; [intros; apply E; right; assumption|assumption]); try (apply IH; [intros; apply E; right; assumption|assumption]);
    exfalso; apply (E a (or_introl eq_refl)) in Ha || (apply Ha, E; [left; reflexivity|assumption]); contradiction.
Qed.
Lemma selects_map : forall (A B : Type) (g : A -> B) (P : A -> Prop) (Q : B -> Prop) l h, (forall a, In a l -> (P a <-> Q (g a))) -> selects P l h -> selects Q (map g l) (map g h).
Proof.
  intros A B g P Q l h E H. induction H as [|a l h Ha H IH|a l h Ha H IH]; simpl; [constructor| |].
  - constructor; [apply E; [left; reflexivity|exact Ha]|]. apply IH. intros; apply E; right; assumption.
  - apply sel_skip; [intros C; apply Ha, E; [left; reflexivity|exact C]|]. apply IH. intros; apply E; right; assumption.
Qed.

(** Renaming string labels to anything (whole numbers, other strings): either the check refuses the new labels, or the result is the renamed result. *)
Theorem C98_rename : forall (s : string -> label) npq L df interval_cols bins q noise d u o, (forall a b, s a = s b -> a = b) -> NoDup (keys df) ->
  let ic := match interval_cols with Some l => l | None => guess_interval_cols df end in
  let new := phik_matrix_l npq L (relabel s df) (option_map (map s) interval_cols) (relabel_bins s bins) q noise d u o in
  (mixed (map s ic) (relabel s df) -> new = Raise TypeError) /\
  (~ mixed (map s ic) (relabel s df) -> numbered_trouble (map s ic) d (relabel s df) -> new = Raise ValueError) /\
  (~ mixed (map s ic) (relabel s df) -> ~ numbered_trouble (map s ic) d (relabel s df) ->
     exists w, new = rmap (fun t => (relabel_table s t, w)) (phik_matrix npq L df interval_cols bins q noise d u o)).
Proof.
  intros s npq L df interval_cols bins q noise d u o inj ND ic new.
  assert (EI : (match option_map (map s) interval_cols with Some l => l | None => guess_l (relabel s df) end) = map s ic).
  { unfold ic. destruct interval_cols as [l|]; [reflexivity|]. cbn [option_map]. unfold guess_l, guess_interval_cols, labels, relabel. clear. induction df as [|[a c] f IH]; [reflexivity|].
    cbn [map filter snd fst]. destruct (c_num c); cbn [map]; rewrite IH; reflexivity. }
  assert (ND' : NoDup (labels (relabel s df))) by (rewrite r_labels; apply r_nodup; assumption).
  unfold new, phik_matrix_l. rewrite EI. pose proof (C98_check (relabel s df) (map s ic) d) as C.
  destruct (dq_check_l (relabel s df) (map s ic) d) as [[[g ic'] w]|e].
  2:{ cbn [rbind]. destruct e; try contradiction; (split; [intros M; try reflexivity; tauto|split; intros M T; try reflexivity; tauto]). }
  destruct C as (M & _ & T & S1 & S2 & _). split; [contradiction|]. split; [contradiction|]. intros _ _. exists w. cbn [rbind fst snd].
  destruct (C38_surviving_columns df ic d ND) as [Q1 Q2]. unfold phik_matrix. fold ic. destruct (dq_check_nunique_values df ic d) as [cl icc]. cbn [fst snd] in Q1, Q2.
  set (sv := fun p : string * col => Nat.leb 2 (nunique (snd p)) || (Nat.eqb (nunique (snd p)) 1 && negb d && negb (mem (fst p) ic))) in *.
  assert (KS : forall p, sv p = true <-> kept (map s ic) d (s (fst p), snd p)).
  { intros [a c]. unfold sv, kept. cbn [fst snd]. rewrite orb_true_iff, !andb_true_iff, Nat.leb_le, Nat.eqb_eq, !negb_true_iff, (r_in s inj).
    assert (X : mem a ic = false <-> ~ In a ic) by (rewrite <- (r_mem s inj), lmem_false, (r_in s inj); reflexivity). rewrite X. tauto. }
  assert (G : g = relabel s cl).
  { apply (selects_unique _ (kept (map s ic) d) (kept (map s ic) d) (relabel s df)); [tauto|exact S1|]. rewrite Q1. unfold relabel.
    apply (selects_map _ _ _ (fun p => kept (map s ic) d (s (fst p), snd p))); [tauto|]. apply selects_filter. intros p _. apply KS. }
  assert (I : ic' = map s icc).
  { apply (selects_unique _ (fun a => In a (labels g)) (fun a => In a (labels g)) (map s ic)); [tauto|exact S2|]. rewrite Q2, G, r_labels.
    apply (selects_map _ _ _ (fun a => In a (keys cl))); [intros a _; rewrite (r_in s inj); reflexivity|]. rewrite Q1. apply selects_filter.
    intros a _. rewrite <- (r_mem s inj), lmem_In, (r_in s inj). reflexivity. }
  rewrite G, I, (r_bin_data s inj). destruct (bin_data npq cl icc bins q) as [[bf bdict]|e] eqn:EB; [|reflexivity]. cbn [rmap rbind fst].
  assert (NB : NoDup (keys bf)) by (pose proof (bin_data_spec _ _ _ _ _ _ _ EB) as (K & _); rewrite K, Q1; apply nodup_keys_filter; exact ND).
  rewrite (r_rebinned s inj L bf noise d u o NB). destruct (fst (phik_from_rebinned_df L bf noise d u o)); reflexivity.
Qed.
Print Assumptions C98_rename.
(** With string labels nothing is refused: the function is phik_matrix as modelled for string labels. *)
Theorem C98_strings : forall npq L df interval_cols bins q noise d u o, NoDup (keys df) ->
  exists w, phik_matrix_l npq L (relabel LStr df) (option_map (map LStr) interval_cols) (relabel_bins LStr bins) q noise d u o =
    rmap (fun t => (relabel_table LStr t, w)) (phik_matrix npq L df interval_cols bins q noise d u o).
Proof.
  intros npq L df interval_cols bins q noise d u o ND.
  destruct (C98_rename LStr npq L df interval_cols bins q noise d u o ltac:(congruence) ND) as (_ & _ & H). apply H.
  - intros [(z & I & _) _]. rewrite r_labels in I. apply in_map_iff in I. destruct I as (x & E & _). discriminate.
  - intros (z & c & I & _). apply in_map_iff in I. destruct I as (x & E & _). discriminate.
Qed.
Print Assumptions C98_strings.

(** A repeated label is always refused. *)
Theorem C98_repeated : forall npq L f interval_cols bins q noise d u o, ~ NoDup (labels f) ->
  phik_matrix_l npq L f interval_cols bins q noise d u o = Raise ValueError \/ phik_matrix_l npq L f interval_cols bins q noise d u o = Raise TypeError.
Proof.
  intros npq L f interval_cols bins q noise d u o ND. unfold phik_matrix_l. set (ic := match interval_cols with Some l => l | None => guess_l f end).
  pose proof (C98_check f ic d) as C. destruct (dq_check_l f ic d) as [[[g ic'] w]|e]; [destruct C as (_ & C & _); contradiction|]. cbn [rbind].
  destruct e; try contradiction; [left|right]; reflexivity || (right; reflexivity).
Qed.
Print Assumptions C98_repeated.

Lemma map_rep : forall (A B : Type) (g : A -> B) a n, map g (repeat a n) = repeat (g a) n.
Proof. intros A B g a n. induction n as [|n IH]; [reflexivity|]. simpl. rewrite IH. reflexivity. Qed.
(** phik_from_rebinned_df does no such check. If every column has the same label the result is all ones, whatever the data: *)
Theorem C98_same_label : forall L a (cs : list col) noise d u o,
  phik_rebinned_l L (map (fun c => (a, c)) cs) noise d u o =
    Ok (mkLT (repeat a (length cs)) (repeat a (length cs)) (repeat (repeat (Fin 1) (length cs)) (length cs))).
Proof.
  intros L a cs noise d u o. unfold phik_rebinned_l. set (f := lclean d u o _).
  assert (EL : labels f = repeat a (length cs)).
  { unfold f, lclean, labels. rewrite !map_map. cbn [fst]. clear. induction cs as [|c cs IH]; [reflexivity|]. simpl. rewrite IH. reflexivity. }
  rewrite EL. set (n := length cs).
  assert (CB : forall p, In p (combos (repeat a n)) -> p = (a, a)).
  { intros [x y] H. apply in_combos in H. cbn [fst snd] in H. destruct H as [H1 H2]. apply repeat_spec in H1. apply repeat_spec in H2. congruence. }
  rewrite (mapM_all_ok _ _ _ (fun _ => (a, a, Fin 1))).
  2:{ intros p H. rewrite (CB p H). unfold calc_phik_l. cbn [fst snd]. rewrite label_eqb_refl. reflexivity. }
  cbn [rbind]. do 2 f_equal.
  assert (EE : (0 < n)%nat -> lentry (map (fun _ => (a, a, Fin 1)) (combos (repeat a n))) a a = Fin 1).
  { intros Hn. unfold lentry. set (vals := map _ _). assert (V : forall v, In v vals -> v = (a, a, Fin 1)) by (intros v H; unfold vals in H; apply in_map_iff in H; destruct H as (x & <- & _); reflexivity).
    assert (NE : vals <> []) by (unfold vals; destruct n; [lia|simpl; discriminate]). clearbody vals.
    apply nmean_const.
    - destruct vals as [|v vals]; [contradiction|]. rewrite (V v (or_introl eq_refl)). unfold lgroup. cbn. rewrite label_eqb_refl. cbn. discriminate.
    - reflexivity.
    - intros y H. unfold lgroup in H. apply in_map_iff in H. destruct H as (r & <- & H). apply filter_In in H. destruct H as [H _]. apply in_flat_map in H. destruct H as (v & Hv & H).
      rewrite (V v Hv) in H. destruct H as [<- |[<- |[]]]; reflexivity. }
  destruct (Nat.eq_dec n 0) as [E0|N0]; [rewrite E0; reflexivity|]. rewrite !map_rep. rewrite EE by lia. reflexivity.
Qed.
Print Assumptions C98_same_label.
(** ... and if one label is repeated beside another label, it raises an exception. *)
Theorem C98_repeated_rebinned : forall L f noise d u o a b, In a (labels f) -> In b (labels f) -> a <> b -> ~ NoDup (labels f) ->
  exists e, phik_rebinned_l L f noise d u o = Raise e.
Proof.
  intros L f noise d u o a b Ha Hb AB ND. unfold phik_rebinned_l. set (f' := lclean d u o f).
  assert (EL : labels f' = labels f) by (unfold f', lclean, labels; rewrite map_map; reflexivity). rewrite EL.
  destruct (mapM (fun pq => calc_phik_l L noise f' (fst pq) (snd pq)) (combos (labels f))) as [vals|e] eqn:EM; [|exists e; reflexivity]. exfalso.
  (* a repeated label c and another label x *)
  assert (RP : exists c, In c (labels f) /\ forall k, filter (fun p => label_eqb c (fst p)) f' <> [k]).
  { destruct (list_eq_dec label_dec (labels f) []) as [E|E]; [rewrite E in Ha; destruct Ha|].
    assert (X : ~ (forall c, In c (labels f') -> col_nunique f' c <> Raise ValueError)) by (intros H; apply ND; rewrite <- EL; apply nodup_of_nunique; exact H).
    assert (Y : exists c, In c (labels f') /\ col_nunique f' c = Raise ValueError).
    { assert (DEC : forall l, (forall c, In c l -> col_nunique f' c <> Raise ValueError) \/ exists c, In c l /\ col_nunique f' c = Raise ValueError).
      { induction l as [|c l IH]; [left; intros c []|]. destruct (col_nunique_cases f' c) as [(k & K & _)|K].
        - destruct IH as [IH|(c' & H1 & H2)]; [left; intros c' [<- |H]; [congruence|apply IH; exact H]|right; exists c'; split; [right; exact H1|exact H2]].
        - right. exists c. split; [left; reflexivity|exact K]. }
      destruct (DEC (labels f')) as [D|D]; [contradiction|exact D]. }
    destruct Y as (c & Hc & Y). exists c. split; [rewrite <- EL; exact Hc|]. intros [k kc] K. unfold col_nunique in Y. rewrite K in Y. discriminate. }
  destruct RP as (c & Hc & RP).
  assert (X : exists x, In x (labels f) /\ x <> c) by (destruct (label_dec a c) as [-> |N]; [exists b; split; [exact Hb|congruence]|exists a; split; assumption]).
  destruct X as (x & Hx & NX).
  assert (P : In (c, x) (combos (labels f)) \/ In (x, c) (combos (labels f))).
  { clear - Hc Hx. induction (labels f) as [|y l IH]; [destruct Hc|]. cbn [combos]. rewrite !in_app_iff. destruct Hc as [-> |Hc].
    - left. left. apply in_map_iff. exists x. split; [reflexivity|exact Hx].
    - destruct Hx as [-> |Hx]; [right; left; apply in_map_iff; exists c; split; [reflexivity|right; exact Hc]|]. destruct (IH Hc Hx); [left|right]; right; assumption. }
  apply Base.mapM_ok in EM. assert (OKP : forall p, In p (combos (labels f)) -> exists v, calc_phik_l L noise f' (fst p) (snd p) = Ok v).
  { clear - EM. induction EM as [|p v l vs H EM IH]; intros q Hq; [destruct Hq|]. destruct Hq as [<- |Hq]; [exists v; exact H|apply IH; exact Hq]. }
  destruct P as [P|P]; destruct (OKP _ P) as (v & V); unfold calc_phik_l in V; cbn [fst snd] in V; rewrite label_eqb_false in V by congruence.
  - destruct (filter (fun p => label_eqb c (fst p)) f') as [|k [|k' l]] eqn:E; [discriminate|exact (RP k eq_refl)|destruct k; discriminate].
  - destruct (filter (fun p => label_eqb x (fst p)) f') as [|[k kc] [|k' l]]; try discriminate.
    destruct (filter (fun p => label_eqb c (fst p)) f') as [|k2 [|k' l]] eqn:E; [discriminate|exact (RP k2 eq_refl)|destruct k2; discriminate].
Qed.
Print Assumptions C98_repeated_rebinned.

(** So numbers as labels are not harmless: a constant column is dropped with a warning if its name is a string, and is an error if its name is a number. *)
Theorem C98_numbers_not_harmless : exists df,
  (forall npq L q noise u o, exists t, phik_matrix_l npq L (relabel LStr df) None (LOne (BNum 10)) q noise true u o = Ok (t, [WFew "a"%string 1%nat])) /\
  (forall s npq L q noise u o, s "a"%string = LInt 0 -> (forall a b, s a = s b -> a = b) ->
     phik_matrix_l npq L (relabel s df) None (LOne (BNum 10)) q noise true u o = Raise ValueError).
Proof.
  exists [("a", mkCol false [CStr "x"; CStr "x"])]%string. split.
  - intros npq L q noise u o. eexists. unfold phik_matrix_l. vm_compute dq_check_l. cbn [rbind fst snd]. reflexivity.
  - intros s npq L q noise u o E _. unfold relabel. cbn [map fst snd]. rewrite E. reflexivity.
Qed.
Print Assumptions C98_numbers_not_harmless.
(** Examples: the default labels 0, 1 of a frame without names work if nothing is to be warned about; mixed labels do not. *)
Example C98_run :
  (forall npq L, exists w, phik_matrix_l npq L [(LInt 0, mkCol false [CStr "x"; CStr "y"]); (LInt 1, mkCol false [CStr "x"; CStr "y"; CNaN])]%string None (LOne (BNum 10)) false true true true true =
     rmap (fun t => (relabel_table (fun s => if String.eqb s "0" then LInt 0 else if String.eqb s "1" then LInt 1 else LStr s) t, w))
       (phik_matrix npq L [("0", mkCol false [CStr "x"; CStr "y"]); ("1", mkCol false [CStr "x"; CStr "y"; CNaN])]%string None (BOne (BNum 10)) false true true true true)) /\
  dq_check_l [(LInt 0, mkCol false [CStr "x"; CStr "y"]); (LStr "b", mkCol false [CStr "x"; CStr "y"])]%string [] true = Raise TypeError /\
  dq_check_l [(LInt 0, mkCol false [CStr "x"; CStr "y"]); (LInt 0, mkCol false [CStr "x"; CStr "y"])]%string [] true = Raise ValueError /\
  dq_check_l [(LStr "k", mkCol true [CInt 1; CInt 1]); (LStr "v", mkCol true [CInt 1; CInt 2]); (LStr "c", mkCol false [CStr "x"; CNaN])]%string [LStr "v"; LStr "k"; LStr "q"]%string false =
    Ok ([(LStr "v", mkCol true [CInt 1; CInt 2]); (LStr "c", mkCol false [CStr "x"; CNaN])], [LStr "v"], [WFew "k" 1])%string.
Proof.
  split; [|repeat split; reflexivity]. intros npq L.
  apply (C98_rename (fun s => if String.eqb s "0" then LInt 0 else if String.eqb s "1" then LInt 1 else LStr s) npq L
    [("0", mkCol false [CStr "x"; CStr "y"]); ("1", mkCol false [CStr "x"; CStr "y"; CNaN])]%string None (BOne (BNum 10)) false true true true true).
  - intros a b. destruct (String.eqb_spec a "0"), (String.eqb_spec b "0"), (String.eqb_spec a "1"), (String.eqb_spec b "1"); congruence.
  - repeat constructor; simpl; intuition congruence.
  - intros [_ (s & I & _)]. cbn in I. intuition discriminate.
  - intros (z & c & I & K). cbn in I. destruct I as [I|[I|[]]]; injection I as <- <-; (destruct K as [K|[K _]]; [apply K; left; vm_compute; lia|vm_compute in K; lia]).
Qed.

(** * the order of the warnings *)
Definition llt (a b : label) : Prop := match a, b with LInt x, LInt y => (x < y)%Z | LStr x, LStr y => scmp x y = Lt | _, _ => False end.
Lemma lless_llt : forall a b, lless a b = true <-> llt a b.
Proof.
  intros [x|x] [y|y]; cbn; try (split; [discriminate|intros []]).
  - apply Z.ltb_lt.
  - destruct (scmp x y); split; congruence.
Qed.
Definition one_kind (l : list label) : Prop := forall a b, In a l -> In b l -> is_lint a = is_lint b.
Lemma llt_total : forall a b, is_lint a = is_lint b -> a <> b -> llt a b \/ llt b a.
Proof.
  intros [x|x] [y|y] K N; try discriminate; cbn.
  - assert (x <> y) by congruence. lia.
  - pose proof (scmp_antisym x y) as A. destruct (scmp x y) eqn:E; [apply scmp_eq in E; congruence|left; reflexivity|right; exact A].
Qed.
Lemma llt_trans : forall a b c, llt a b -> llt b c -> llt a c.
Proof. intros [x|x] [y|y] [z|z]; cbn; try tauto; [lia|apply scmp_trans]. Qed.
Lemma linsert_sorted : forall a l, one_kind (a :: l) -> ~ In a l -> StronglySorted llt l -> StronglySorted llt (linsert a l).
Proof.
  intros a l. induction l as [|b l IH]; intros K N HS; cbn [linsert]; [constructor; constructor|].
  inversion HS as [|? ? HS' F]; subst. destruct (lless b a) eqn:E.
  - constructor.
    + apply IH; [|intros H; apply N; right; exact H|exact HS']. intros u v Hu Hv. apply K; cbn [In] in *; tauto.
    + rewrite Forall_forall in *. intros x Hx. apply linsert_In in Hx. destruct Hx as [-> |Hx]; [apply lless_llt; exact E|apply F; exact Hx].
  - assert (AB : llt a b).
    { destruct (llt_total a b) as [H|H]; [apply K; cbn; tauto|intros ->; apply N; left; reflexivity|exact H|]. apply lless_llt in H. congruence. }
    constructor; [exact HS|]. constructor; [exact AB|]. rewrite Forall_forall in *. intros x Hx. apply (llt_trans a b x); [exact AB|apply F; exact Hx].
Qed.
Lemma distinct_NoDup : forall l, NoDup (distinct l).
Proof.
  induction l as [|a l IH]; cbn [distinct]; constructor; [|apply NoDup_filter; exact IH].
  intros H. apply filter_In in H. destruct H as [_ H]. rewrite label_eqb_refl in H. discriminate.
Qed.
Lemma lsorted_sorted : forall l k, lsorted l = Ok k -> StronglySorted llt k.
Proof.
  intros l k H. unfold lsorted in H. destruct (existsb is_lint l && existsb is_lstr l) eqn:B; [discriminate|]. injection H as <-.
  assert (K : one_kind (distinct l)).
  { intros a b Ha Hb. apply (proj1 (distinct_In a l)) in Ha. apply (proj1 (distinct_In b l)) in Hb. apply andb_false_iff in B.
    destruct B as [B|B].
    - assert (X : forall c, In c l -> is_lint c = false). { intros c Hc. destruct (is_lint c) eqn:E; [|reflexivity]. assert (existsb is_lint l = true) by (apply existsb_exists; exists c; auto). congruence. } rewrite !X by assumption. reflexivity.
    - assert (X : forall c, In c l -> is_lint c = true). { intros c Hc. destruct (is_lint c) eqn:E; [reflexivity|]. assert (existsb is_lstr l = true) by (apply existsb_exists; exists c; unfold is_lstr; rewrite E; auto). congruence. } rewrite !X by assumption. reflexivity. }
  pose proof (distinct_NoDup l) as N. revert K N. generalize (distinct l) as m. induction m as [|a m IH]; intros K N; [constructor|]. cbn [fold_right].
  inversion N; subst.
  assert (X : forall c, In c (fold_right linsert [] m) <-> In c m). { clear. intros c. induction m as [|b m IH]; [reflexivity|]. cbn [fold_right]. rewrite linsert_In, IH. cbn [In]. intuition congruence. }
  apply linsert_sorted; [|rewrite X; assumption|apply IH; [intros u v Hu Hv; apply K; right; assumption|assumption]].
  intros u v Hu Hv. apply K; cbn [In] in *; rewrite X in *; assumption.
Qed.
Definition wname (w : dqwarning) : label := match w with WMany s _ => LStr s | WFew s _ => LStr s end.
Definition is_many (w : dqwarning) : Prop := exists s n, w = WMany s n.
Definition is_few (w : dqwarning) : Prop := exists s n, w = WFew s n.
Lemma many_names : forall f l ws, many_loop f l = Ok ws ->
  map wname ws = filter (fun a => match col_nunique f a with Ok n => Nat.ltb 1000 n | _ => false end) l /\ Forall is_many ws.
Proof.
  intros f l. induction l as [|a l IH]; intros ws H; cbn [many_loop] in H; [injection H as <-; split; [reflexivity|constructor]|].
  cbn [filter]. destruct (col_nunique f a) as [n|]; [|discriminate]. cbn [rbind] in H. destruct (Nat.ltb 1000 n).
  - destruct a as [z|s]; [discriminate|]. cbn [fmt_s rbind] in H. destruct (many_loop f l) as [w|]; [|discriminate]. cbn [rbind] in H. injection H as <-.
    destruct (IH w eq_refl) as [A B]. cbn [app map wname]. rewrite A. split; [reflexivity|]. constructor; [exists s, n; reflexivity|exact B].
  - cbn [rbind] in H. destruct (many_loop f l) as [w|]; [|discriminate]. cbn [rbind] in H. injection H as <-. exact (IH w eq_refl).
Qed.
Lemma few_names : forall f bad l d ws, few_loop f bad l = Ok (d, ws) ->
  map wname ws = filter (fun a => match col_nunique f a with Ok n => bad n | _ => false end) l /\ Forall is_few ws.
Proof.
  intros f bad l. induction l as [|a l IH]; intros d ws H; cbn [few_loop] in H; [injection H as <- <-; split; [reflexivity|constructor]|].
  cbn [filter]. destruct (col_nunique f a) as [n|]; [|discriminate]. cbn [rbind] in H. destruct (bad n).
  - destruct a as [z|s]; [discriminate|]. cbn [fmt_s rbind] in H. destruct (few_loop f bad l) as [[d' w]|]; [|discriminate]. cbn [rbind fst snd] in H. injection H as <- <-.
    destruct (IH _ w eq_refl) as [A B]. cbn [app map wname]. rewrite A. split; [reflexivity|]. constructor; [exists s, n; reflexivity|exact B].
  - cbn [rbind] in H. destruct (few_loop f bad l) as [[d' w]|]; [|discriminate]. cbn [rbind fst snd] in H. injection H as <- <-. exact (IH _ w eq_refl).
Qed.
Lemma ssorted_filter : forall (p : label -> bool) l, StronglySorted llt l -> StronglySorted llt (filter p l).
Proof.
  intros p l H. induction H as [|a l H IH F]; [constructor|]. cbn [filter]. destruct (p a); [|exact IH]. constructor; [exact IH|].
  rewrite Forall_forall in *. intros x Hx. apply filter_In in Hx. apply F, Hx.
Qed.
(** First the warnings about large columns in ascending order of their names, then those about the interval columns in the order given by
    the user, then those about the other columns in ascending order. *)
Theorem C98_warning_order : forall f ic dropna f' ic' w, dq_check_l f ic dropna = Ok (f', ic', w) ->
  exists m a b, w = m ++ a ++ b /\ Forall is_many m /\ Forall is_few a /\ Forall is_few b /\
    StronglySorted llt (map wname m) /\ StronglySorted llt (map wname b) /\
    selects (fun x => exists c, In (x, c) f /\ (nunique c < 2)%nat) ic (map wname a) /\
    (forall x, In x (map wname b) -> ~ In x ic).
Proof.
  intros f ic dropna f' ic' w H. unfold dq_check_l in H. set (ic0 := filter (fun c => lmem c (labels f)) ic) in *.
  destruct (lsorted _) as [k|] eqn:EK; [|discriminate]. cbn [rbind] in H. destruct (many_loop f k) as [m|] eqn:EM; [|discriminate]. cbn [rbind] in H.
  destruct (few_loop f _ ic0) as [[d1 a]|] eqn:EA; [|discriminate]. cbn [rbind] in H. destruct (few_loop f _ k) as [[d2 b]|] eqn:EB; [|discriminate]. cbn [rbind fst snd] in H.
  destruct (many_names _ _ _ EM) as [M1 M2]. destruct (few_names _ _ _ _ _ EA) as [A1 A2]. destruct (few_names _ _ _ _ _ EB) as [B1 B2].
  pose proof (lsorted_sorted _ _ EK) as SK. exists m, a, b.
  split. { assert (X := f_equal (fun r => match r with Ok t => snd t | _ => w end) H). cbn in X. symmetry. exact X. }
  split; [exact M2|]. split; [exact A2|]. split; [exact B2|]. split; [rewrite M1; apply ssorted_filter; exact SK|]. split; [rewrite B1; apply ssorted_filter; exact SK|]. split.
  - assert (OK : forall x, In x ic0 -> exists n, col_nunique f x = Ok n).
    { destruct (few_spec f (fun n => Nat.ltb n 2) ic0) as [(dd & ww & _ & X & _)|(X & _)]; [|rewrite X in EA; discriminate]. intros x Hx. destruct (X x Hx) as (n & N & _). exists n. exact N. }
    rewrite A1. unfold ic0 in *. clear - OK. induction ic as [|x ic IH]; [constructor|]. cbn [filter] in *. destruct (lmem x (labels f)) eqn:L.
    + cbn [filter]. destruct (OK x (or_introl eq_refl)) as (n & EN). destruct (col_nunique_cases f x) as [(c & E & F)|E]; [|congruence].
      rewrite E. assert (IC : forall c', In (x, c') f -> c' = c).
      { intros c' I. assert (J : In (x, c') (filter (fun p => label_eqb x (fst p)) f)) by (apply filter_In; split; [exact I|apply label_eqb_refl]). rewrite F in J. destruct J as [J|[]]. congruence. }
      assert (I : In (x, c) f). { assert (J : In (x, c) (filter (fun p => label_eqb x (fst p)) f)) by (rewrite F; left; reflexivity). apply filter_In in J. apply J. }
      assert (IH' := IH (fun y Hy => OK y (or_intror Hy))).
      destruct (Nat.ltb_spec (nunique c) 2) as [B|B]; constructor; try exact IH'; [exists c; split; assumption|]. intros (c' & I' & B'). rewrite (IC c' I') in B'. lia.
    + constructor; [|exact (IH OK)]. intros (c & I & _). apply lmem_false in L. apply L. apply in_map_iff. exists (x, c). split; [reflexivity|exact I].
  - intros x Hx. rewrite B1 in Hx. apply filter_In in Hx. destruct Hx as [Hx _].
    destruct (lsorted_spec (filter (fun c => negb (lmem c ic0)) (labels f))) as [(X & _)|(k' & X & Y & _)]; [congruence|]. rewrite EK in X. injection X as <-. apply Y in Hx.
    apply filter_In in Hx. destruct Hx as [H1 H2]. intros H3. apply negb_true_iff in H2. apply lmem_false in H2. apply H2. apply filter_In. split; [exact H3|]. apply lmem_In. exact H1.
Qed.
(** two constant categorical columns: warned about in ascending order of their names, not in column order; interval columns in the order given *)
Theorem C98_warning_example :
  let k := mkCol false [CStr "x"; CStr "x"]%string in
  dq_check_l [(LStr "d", k); (LStr "b", k); (LStr "c", k); (LStr "a", k)]%string [LStr "c"; LStr "a"]%string true =
    Ok ([], [], [WFew "c" 1; WFew "a" 1; WFew "b" 1; WFew "d" 1])%string.
Proof. reflexivity. Qed.
Print Assumptions C98_warning_order.
