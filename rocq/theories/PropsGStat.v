(** C102: the G (log-likelihood) statistic in floating-point arithmetic. *)
From Coq Require Import ZArith List Bool Reals Lia Lra Psatz Permutation.
Import ListNotations.
From Flocq Require Import Core BinarySingleNaN.
From Verif Require Import F64 Base RSum StatsModel SpecStats StatsProofs LinspaceProofs BrentFModel BrentFProofs Chi2FModel SpecChi2F Chi2FProofs Chi2FProofs2 Chi2FProofs3 PropsFloatPhik PropsChi2F GStatModel SpecGStat GStatProofs GStatProofs2.
Open Scope R_scope.

(** For every table of counts with at least one record, in every order in which numpy may add, with every good logarithm: the G statistic
    computed in binary64 exists (scipy raises nothing), is finite, and is within [g_tol] of the exact statistic. *)
Theorem C102_g_rounding : forall add_up flog m, any_order add_up -> good_log flog -> count_table64 m -> has_records (real_table m) -> moderate (real_table m) ->
  exists c g, get_g_64 add_up flog m = Ok c /\ get_chi2 true (real_table m) LogLikelihood = Ok g /\
    ffin c = true /\ 0 <= g /\ Rabs (f2R c - g) <= g_tol (real_table m) g.
Proof. exact g_any. Qed.
(** a table without records raises *)
Theorem C102_no_records : forall add_up flog m, count_table64 m -> ~ has_records (real_table m) -> get_g_64 add_up flog m = Raise ValueError.
Proof.
  intros add_up flog m CT HR. assert (FT : fin_table m) by (intros i j Hi Hj; apply (CT i j Hi Hj)). pose proof (kept_shape m FT) as [S1 S2].
  assert (E : nz_rows (real_table m) = []). { destruct (nz_rows (real_table m)) as [|i l] eqn:E; [reflexivity|]. exfalso. apply HR. assert (I : In i (nz_rows (real_table m))) by (rewrite E; left; reflexivity). apply in_nz_rows in I. destruct I as (A & j & B & C). exists i, j. tauto. }
  rewrite E in S1. cbn [length] in S1. rewrite get_g_64_kept. unfold g_contingency64, fcells. rewrite S1. cbn [idx seq list_prod existsb Nat.mul Nat.eqb]. reflexivity.
Qed.
(** the order of the additions, two different C libraries, the order of the rows and columns, and empty rows and columns change the result
    by rounding errors only ... *)
Theorem C102_order : forall add_up add_up' flog flog' m I J c c' g, any_order add_up -> any_order add_up' -> good_log flog -> good_log flog' -> count_table64 m -> has_records (real_table m) -> moderate (real_table m) ->
  rearrangement (real_table m) I J -> get_g_64 add_up flog m = Ok c -> get_g_64 add_up' flog' (fsub m I J) = Ok c' -> get_chi2 true (real_table m) LogLikelihood = Ok g ->
  Rabs (f2R c - f2R c') <= 2 * g_tol (real_table m) g.
Proof.
  intros add_up add_up' flog flog' m I J c c' g AO AO' GL GL' CT HR HM RR E E' X. set (T := real_table m) in *. change (real_table (fsub m I J)) with (submat T I J) in *.
  assert (CT' : count_table64 (fsub m I J)). { destruct RR as (_ & _ & RI & RJ & _). intros i j Hi Hj. cbn [fsub fr fc fe] in *. apply CT; [apply RI, nth_In, Hi|apply RJ, nth_In, Hj]. }
  assert (LI : (length I <= nr T)%nat). { destruct RR as (NI & _ & BI & _ & _). rewrite <- (idx_length (nr T)). apply NoDup_incl_length; [exact NI|]. intros i Hi. apply in_idx, BI, Hi. }
  assert (LJ : (length J <= nc T)%nat). { destruct RR as (_ & NJ & _ & BJ & _). rewrite <- (idx_length (nc T)). apply NoDup_incl_length; [exact NJ|]. intros i Hi. apply in_idx, BJ, Hi. }
  assert (KL : (length I * length J <= nr T * nc T)%nat) by (apply Nat.mul_le_mono; assumption). pose proof (le_INR _ _ KL) as KR.
  assert (HR' : has_records (submat T I J)).
  { destruct HR as (i & j & Hi & Hj & N). destruct RR as (_ & _ & _ & _ & C). destruct (C i j Hi Hj N) as [I1 J1]. apply (In_nth _ _ 0%nat) in I1. destruct I1 as (p & Hp & EP). apply (In_nth _ _ 0%nat) in J1. destruct J1 as (q & Hq & EQ). exists p, q. cbn [nr nc el submat]. rewrite EP, EQ. tauto. }
  destruct (g_any add_up flog m AO GL CT HR HM) as (c1 & g1 & H1 & H2 & H3 & H4 & H5). fold T in H2, H5.
  pose proof (matsum_nonneg T (T_nonneg m CT)) as NN.
  destruct HM as [M1 M2]. fold T in M1, M2.
  destruct (g_any add_up' flog' (fsub m I J) AO' GL' CT' HR') as (c2 & g2 & G1 & G2 & G3 & G4 & G5).
  { split; change (real_table (fsub m I J)) with (submat T I J); [rewrite (sub_matsum _ _ _ RR); exact M1|cbn [nr nc submat]; lra]. }
  change (real_table (fsub m I J)) with (submat T I J) in G2, G5. rewrite (get_chi2_rearr _ _ _ _ _ RR) in G2.
  assert (c1 = c) by congruence. assert (c2 = c') by congruence. assert (g1 = g) by congruence. assert (g2 = g) by congruence. subst.
  assert (TL : g_tol (submat T I J) g <= g_tol T g). { unfold g_tol. rewrite (sub_matsum _ _ _ RR). cbn [nr nc submat]. apply g_tol_mono; assumption. }
  eapply Rle_trans; [apply (rabs_split _ g)|]. rewrite (Rabs_minus_sym g). lra.
Qed.
(** ... and so does swapping rows with columns *)
Theorem C102_swapped : forall add_up add_up' flog flog' m c c' g, any_order add_up -> any_order add_up' -> good_log flog -> good_log flog' -> count_table64 m -> has_records (real_table m) -> moderate (real_table m) ->
  get_g_64 add_up flog m = Ok c -> get_g_64 add_up' flog' (ftransp m) = Ok c' -> get_chi2 true (real_table m) LogLikelihood = Ok g ->
  Rabs (f2R c - f2R c') <= 2 * g_tol (real_table m) g.
Proof.
  intros add_up add_up' flog flog' m c c' g AO AO' GL GL' CT HR HM E E' X. set (T := real_table m) in *.
  assert (TE : real_table (ftransp m) = transp T) by reflexivity.
  assert (MT : matsum (transp T) = matsum T) by (rewrite (matsum_colsum T); reflexivity).
  destruct (g_any add_up flog m AO GL CT HR HM) as (c1 & g1 & H1 & H2 & H3 & H4 & H5). fold T in H2, H5.
  destruct (g_any add_up' flog' (ftransp m) AO' GL') as (c2 & g2 & G1 & G2 & G3 & G4 & G5).
  { intros i j Hi Hj. apply CT; assumption. }
  { destruct HR as (i & j & Hi & Hj & N). exists j, i. cbn in *. tauto. }
  { destruct HM as [M1 M2]. fold T in M1, M2. rewrite TE. split; [rewrite MT; exact M1|cbn [nr nc transp]; rewrite Nat.mul_comm; exact M2]. }
  rewrite TE in G2, G5. rewrite get_chi2_transp in G2. assert (c1 = c) by congruence. assert (c2 = c') by congruence. assert (g1 = g) by congruence. assert (g2 = g) by congruence. subst.
  assert (TL : g_tol (transp T) g = g_tol T g) by (unfold g_tol; rewrite MT; cbn [nr nc transp]; rewrite (Nat.mul_comm (nc T)); reflexivity).
  eapply Rle_trans; [apply (rabs_split _ g)|]. rewrite (Rabs_minus_sym g). lra.
Qed.

(** ** exactly independent tables *)
Lemma log_one : forall flog x, good_log flog -> ffin x = true -> f2R x = 1 -> ffin (flog x) = true /\ f2R (flog x) = 0.
Proof.
  intros flog x GL F E. destruct (GL x F ltac:(lra)) as [A B]. split; [exact A|]. rewrite E, ln_1, Rabs_R0, Rmult_0_r, Rminus_0_r in B. destruct (Req_dec (f2R (flog x)) 0) as [Z|Z]; [exact Z|]. pose proof (Rabs_pos_lt _ Z). lra.
Qed.
Lemma gterm_one : forall flog o e, good_log flog -> ffin o = true -> ffin e = true -> f2R e = f2R o -> 0 < f2R e -> ffin (fgterm flog o e) = true /\ f2R (fgterm flog o e) = 0.
Proof.
  intros flog o e GL FO FE E P. assert (Q : f2R o / f2R e = 1) by (rewrite E; field; lra).
  destruct (fdiv_spec o e 0 FO ltac:(lra) ltac:(lia)) as [V F]; [rewrite Q, Rabs_pos_eq by lra; change (bpow radix2 0) with 1; lra|]. rewrite Q, (rnd_id 1) in V by (apply (fmt_IZR 1); lia).
  destruct (log_one flog _ GL F V) as [F1 V1].
  unfold fgterm, fxlogy. destruct (feqb o fzero) eqn:Z; [apply feqb_zero in Z; [lra|exact FO]|]. cbn [andb].
  destruct (fmult_spec o (flog (fdiv o e)) 0 FO F1 ltac:(lia)) as [V2 F2]; [rewrite V1, Rmult_0_r, Rabs_R0; apply bpow_ge_0|]. rewrite V1, Rmult_0_r, rnd_0 in V2.
  destruct (ofZ_spec 2 ltac:(lia)) as [TV TF]. fold ftwo in TV, TF.
  destruct (fmult_spec ftwo _ 0 TF F2 ltac:(lia)) as [V3 F3]; [rewrite V2, Rmult_0_r, Rabs_R0; apply bpow_ge_0|]. rewrite V2, Rmult_0_r, rnd_0 in V3. split; assumption.
Qed.
(** An exactly independent table of at most 94906265 records gives exactly 0. *)
Theorem C102_independent : forall add_up flog m, any_order add_up -> good_log flog -> count_table64 m -> has_records (real_table m) -> INR (fr m * fc m) <= 1048576 ->
  independent_table (real_table m) -> matsum (real_table m) <= 94906265 -> exists c, get_g_64 add_up flog m = Ok c /\ ffin c = true /\ f2R c = 0.
Proof.
  intros add_up flog m AO GL CT HR HK IT HN. pose proof (records_one m CT HR) as N1. destruct (kept_ok m CT HR ltac:(lra) HK) as (CK & M1 & MB & KK & RP & CP).
  assert (FT : fin_table m) by (intros i j Hi Hj; apply (CT i j Hi Hj)). rewrite get_g_64_kept. set (k := kept m) in *.
  assert (IK : independent_table (real_table k)) by (apply kept_independent; assumption).
  assert (SQ : matsum (real_table k) * matsum (real_table k) <= 9007199254740992) by (rewrite M1; apply Rle_trans with (94906265 * 94906265); [apply Rmult_le_compat; lra|lra]).
  rewrite (g_form add_up AO k CK MB KK RP CP). eexists. split; [reflexivity|]. set (d := ((fr k - 1) * (fc k - 1))%nat). destruct (Nat.eqb d 0); [split; reflexivity|].
  set (t := fun c : nat * nat => fgterm _ _ _).
  assert (TZ : forall c, In c (fcells k) -> ffin (t c) = true /\ f2R (t c) = 0).
  { intros c Hc. apply in_cells in Hc. destruct Hc as [Hi Hj]. destruct (eh_exact add_up AO k CK MB RP CP IK SQ _ _ Hi Hj) as (F & E & P). destruct (CK _ _ Hi Hj) as [FO _]. pose proof (el_le k CK _ _ Hi Hj) as OL.
    unfold t. destruct (Nat.eqb d 1); [|apply gterm_one; try assumption; lra].
    destruct (yates_same k (fe k (fst c) (snd c)) _ FO F E) as [Y1 Y2]; [lra|]. apply gterm_one; try assumption; lra. }
  assert (Z : lsum f2R (map t (fcells k)) = 0) by (rewrite lsum_map; apply lsum_0; intros c Hc; apply TZ, Hc).
  assert (ZA : lsum (fun x => Rabs (f2R x)) (map t (fcells k)) = 0) by (rewrite lsum_map; apply lsum_0; intros c Hc; rewrite (proj2 (TZ c Hc)); apply Rabs_R0).
  destruct (added_signed _ _ (AO STerms (map t (fcells k)))) as [F B].
  - intros x Hx. apply in_map_iff in Hx. destruct Hx as (c & <- & Hc). apply TZ, Hc.
  - rewrite map_length, cells_length. unfold u53. lra.
  - rewrite ZA. apply bpow_ge_0.
  - split; [exact F|]. rewrite Z, ZA, Rmult_0_r, Rminus_0_r in B. destruct (Req_dec (f2R (add_up STerms (map t (fcells k)))) 0) as [Q|Q]; [exact Q|]. pose proof (Rabs_pos_lt _ Q). lra.
Qed.

(** ** the computed statistic can be negative *)
Lemma log_sign : forall flog x, good_log flog -> ffin x = true -> 0 < f2R x <= 1 -> ffin (flog x) = true /\ f2R (flog x) <= 0 /\ (f2R x <= 1 - u53 -> f2R (flog x) <= - (u53 / 2)) /\ f2R (flog x) >= 2 * ln (f2R x).
Proof.
  intros flog x GL F B. destruct (GL x F (proj1 B)) as [A E]. split; [exact A|]. pose proof u53_pos as U. pose proof (ln_sub1 (f2R x) (proj1 B)) as L.
  assert (LN : ln (f2R x) <= 0) by lra. rewrite (Rabs_left1 (ln (f2R x))) in E by exact LN. apply Rabs_le_inv in E. assert (X : 0 <= 2 * u53 * - ln (f2R x) <= / 10 * - ln (f2R x)) by (split; [apply Rmult_le_pos; lra|apply Rmult_le_compat_r; lra]). split; [lra|]. split; lra.
Qed.
Lemma added_below : forall l s, added l s -> (forall x, In x l -> ffin x = true /\ f2R x <= 0) -> INR (length l) * u53 <= 1 / 4 -> lsum (fun x => Rabs (f2R x)) l <= b2 500 -> f2R s <= 0 /\ forall x, In x l -> f2R s <= f2R x.
Proof.
  induction 1 as [|x|l1 l2 s1 s2 H1 IH1 H2 IH2|l l' s H IH P]; intros NN LE BD.
  - split; [cbn; lra|intros x []].
  - split; [apply NN; left; reflexivity|]. intros z [<-|[]]. lra.
  - pose proof (fun h => added_signed l1 s1 H1 h) as A1. pose proof (fun h => added_signed l2 s2 H2 h) as A2. pose proof u53_pos as U.
    rewrite app_length, plus_INR in LE. rewrite lsum_app in BD. pose proof (pos_INR (length l1)) as N1. pose proof (pos_INR (length l2)) as N2.
    assert (P1 : 0 <= lsum (fun x => Rabs (f2R x)) l1) by (apply lsum_nonneg; intros; apply Rabs_pos). assert (P2 : 0 <= lsum (fun x => Rabs (f2R x)) l2) by (apply lsum_nonneg; intros; apply Rabs_pos).
    assert (I1 : forall x, In x l1 -> ffin x = true /\ f2R x <= 0) by (intros x Hx; apply NN, in_or_app; left; exact Hx). assert (I2 : forall x, In x l2 -> ffin x = true /\ f2R x <= 0) by (intros x Hx; apply NN, in_or_app; right; exact Hx).
    destruct (A1 ltac:(intros x Hx; apply I1, Hx) ltac:(nra) ltac:(lra)) as [F1 B1]. destruct (A2 ltac:(intros x Hx; apply I2, Hx) ltac:(nra) ltac:(lra)) as [F2 B2].
    destruct (IH1 I1 ltac:(nra) ltac:(lra)) as [Z1 M1]. destruct (IH2 I2 ltac:(nra) ltac:(lra)) as [Z2 M2].
    destruct (added_signed (l1 ++ l2) _ (added_app _ _ _ _ H1 H2)) as [FS _]; [intros x Hx; apply NN, Hx|rewrite app_length, plus_INR; exact LE|rewrite lsum_app; exact BD|].
    assert (L1 : Rabs (lsum f2R l1) <= lsum (fun x => Rabs (f2R x)) l1) by apply lsum_abs. assert (L2 : Rabs (lsum f2R l2) <= lsum (fun x => Rabs (f2R x)) l2) by apply lsum_abs.
    assert (C1 : Rabs (f2R s1) <= 2 * lsum (fun x => Rabs (f2R x)) l1). { replace (f2R s1) with ((f2R s1 - lsum f2R l1) + lsum f2R l1) by ring. eapply Rle_trans; [apply Rabs_triang|]. assert (2 * INR (length l1) * u53 * lsum (fun x => Rabs (f2R x)) l1 <= 1 * lsum (fun x => Rabs (f2R x)) l1) by (apply Rmult_le_compat_r; [exact P1|nra]). lra. }
    assert (C2 : Rabs (f2R s2) <= 2 * lsum (fun x => Rabs (f2R x)) l2). { replace (f2R s2) with ((f2R s2 - lsum f2R l2) + lsum f2R l2) by ring. eapply Rle_trans; [apply Rabs_triang|]. assert (2 * INR (length l2) * u53 * lsum (fun x => Rabs (f2R x)) l2 <= 1 * lsum (fun x => Rabs (f2R x)) l2) by (apply Rmult_le_compat_r; [exact P2|nra]). lra. }
    destruct (fplus_spec s1 s2 501 F1 F2 ltac:(lia)) as [V F]. { eapply Rle_trans; [apply Rabs_triang|]. change 501%Z with (1 + 500)%Z. rewrite bpow_plus. change (bpow radix2 1) with 2. lra. }
    assert (K1 : f2R (fplus s1 s2) <= f2R s1) by (rewrite V; apply rnd_ub; [apply fmt_B2R|lra]). assert (K2 : f2R (fplus s1 s2) <= f2R s2) by (rewrite V; apply rnd_ub; [apply fmt_B2R|lra]).
    split; [lra|]. intros x Hx. apply in_app_or in Hx. destruct Hx as [Hx|Hx]; [specialize (M1 x Hx); lra|specialize (M2 x Hx); lra].
  - rewrite <- (Permutation_length P), <- !(lsum_perm _ _ _ _ P) in *. destruct IH as [A B]; [|exact LE|exact BD|split; [exact A|]].
    + intros x Hx. apply NN. eapply Permutation_in; eassumption.
    + intros x Hx. apply B. eapply Permutation_in; [apply Permutation_sym; exact P|exact Hx].
Qed.
Lemma ln_lo : forall x, 1 / 2 <= x -> -1 <= ln x.
Proof. intros x H. pose proof (ln_sub1 (/ x) ltac:(apply Rinv_0_lt_compat; lra)) as L. rewrite ln_Rinv in L by lra. assert (/ x <= 2) by (replace 2 with (/ (1 / 2)) by field; apply Rinv_le_contravar; lra). lra. Qed.
Lemma gterm_below : forall flog o e, good_log flog -> ffin o = true -> 1 <= f2R o <= b2 60 -> ffin (fdiv o e) = true -> 1 / 2 <= f2R (fdiv o e) <= 1 ->
  ffin (fgterm flog o e) = true /\ f2R (fgterm flog o e) <= 0 /\ Rabs (f2R (fgterm flog o e)) <= b2 63 /\ (f2R (fdiv o e) <= 1 - u53 -> f2R (fgterm flog o e) < 0).
Proof.
  intros flog o e GL FO BO FY BY. destruct (log_sign flog _ GL FY ltac:(lra)) as (FL & L1 & L2 & L3). pose proof (ln_lo _ (proj1 BY)) as L4. pose proof u53_pos as U.
  unfold fgterm, fxlogy. destruct (feqb o fzero) eqn:Z; [apply feqb_zero in Z; [lra|exact FO]|]. cbn [andb]. set (l := flog (fdiv o e)) in *.
  assert (PB : Rabs (f2R o * f2R l) <= b2 61). { rewrite Rabs_mult, (Rabs_pos_eq (f2R o)), (Rabs_left1 (f2R l)) by lra. change 61%Z with (60 + 1)%Z. rewrite bpow_plus. change (b2 1) with 2. apply Rmult_le_compat; lra. }
  destruct (fmult_spec o l 61 FO FL ltac:(lia) PB) as [V F].
  assert (N1 : f2R o * f2R l <= f2R l) by nra.
  assert (K1 : f2R (fmult o l) <= f2R l) by (rewrite V; apply rnd_ub; [apply fmt_B2R|exact N1]).
  assert (K2 : Rabs (f2R (fmult o l)) <= b2 61) by (rewrite V; apply rnd_abs_le; [apply fmt_bpow; lia|exact PB]).
  destruct (ofZ_spec 2 ltac:(lia)) as [TV TF]. fold ftwo in TV, TF.
  assert (PB2 : Rabs (f2R ftwo * f2R (fmult o l)) <= b2 62). { rewrite TV, Rabs_mult, (Rabs_pos_eq 2) by lra. change 62%Z with (1 + 61)%Z. rewrite bpow_plus. change (b2 1) with 2. lra. }
  destruct (fmult_spec ftwo (fmult o l) 62 TF F ltac:(lia) PB2) as [V2 F2]. split; [exact F2|].
  assert (K3 : f2R (fmult ftwo (fmult o l)) <= f2R l) by (rewrite V2; apply rnd_ub; [apply fmt_B2R|rewrite TV; lra]).
  split; [lra|]. split; [|intros H; specialize (L2 H); lra]. rewrite V2. apply rnd_abs_le; [apply fmt_bpow; lia|]. eapply Rle_trans; [exact PB2|apply bpow_le; lia].
Qed.
(** 1787798479 records, exactly independent *)
Definition t102 : list (list Z) := [[496154484; 239820588; 531875484]; [203473897; 98350879; 218123147]]%Z.
Definition ratios102 : list f64 := map (fun c => fdiv (fe (kept (ftab t102 3)) (fst c) (snd c)) (Chi2FModel.fexp in_turn (kept (ftab t102 3)) (fst c) (snd c))) (fcells (kept (ftab t102 3))).
Definition below_one : f64 := flit 9007199254740991 (-53).
Lemma ratios102_ok : forallb (fun y => ffin y && fle fhalf y && fle y fone) ratios102 && existsb (fun y => fle y below_one) ratios102 = true.
Proof. vm_compute. reflexivity. Qed.
Lemma cells102_ok : forallb (fun c => ffin (fe (kept (ftab t102 3)) (fst c) (snd c)) && fle fone (fe (kept (ftab t102 3)) (fst c) (snd c)) && fle (fe (kept (ftab t102 3)) (fst c) (snd c)) (ofZ 1000000000)) (fcells (kept (ftab t102 3))) = true.
Proof. vm_compute. reflexivity. Qed.
Lemma shape102 : fr (kept (ftab t102 3)) = 2%nat /\ fc (kept (ftab t102 3)) = 3%nat.
Proof. split; vm_compute; reflexivity. Qed.
(** an exactly independent table of 1787798479 records whose computed G is negative, with every good logarithm *)
Theorem C102_negative : forall flog, good_log flog -> independent_table (tab t102 3) /\ matsum (tab t102 3) = 1787798479 /\
  exists c, get_g_64 in_turn flog (ftab t102 3) = Ok c /\ ffin c = true /\ f2R c < 0.
Proof.
  intros flog GL. destruct (ftab_ok t102 3) as [CT ME]; try reflexivity.
  assert (M : matsum (tab t102 3) = 1787798479) by (unfold matsum, rowsum, lsum, tab, t102; cbn [nr nc el length seq fold_right nth]; lra).
  split; [|split; [exact M|]].
  { intros i j Hi Hj. cbn [tab nr nc] in Hi, Hj. change (length t102) with 2%nat in Hi. rewrite M. unfold rowsum, colsum, lsum, tab, t102. cbn [nr nc el length seq fold_right].
    destruct i as [|[|i]]; [| |lia]; (destruct j as [|[|[|j]]]; [| | |lia]); cbn [nth]; lra. }
  assert (MS : matsum (real_table (ftab t102 3)) = 1787798479) by (rewrite (matsum_eq _ _ ME); exact M).
  assert (HR : has_records (real_table (ftab t102 3))). { destruct ME as (_ & _ & M3). exists 0%nat, 0%nat. split; [cbn; lia|]. split; [cbn; lia|]. rewrite M3 by (cbn; lia). unfold tab, t102. cbn [el nth]. lra. }
  destruct (kept_ok (ftab t102 3) CT HR) as (CK & M1 & MB & KK & RP & CP); [lra|cbn [ftab fr fc]; change (length t102 * 3)%nat with 6%nat; cbn; lra|].
  rewrite get_g_64_kept. pose proof ratios102_ok as RO. pose proof cells102_ok as CO. destruct shape102 as [S1 S2]. unfold ratios102 in RO. set (k := kept (ftab t102 3)) in *. clearbody k.
  rewrite (g_form in_turn in_turn_ok k CK MB KK RP CP flog). rewrite S1, S2. change (((2 - 1) * (3 - 1))%nat) with 2%nat. cbn [Nat.eqb]. eexists. split; [reflexivity|].
  apply andb_true_iff in RO. destruct RO as [RO RX]. rewrite forallb_forall in RO, CO.
  set (t := fun c : nat * nat => fgterm flog (fe k (fst c) (snd c)) (Chi2FModel.fexp in_turn k (fst c) (snd c))).
  destruct fhalf_val as [HV HF]. destruct fone_val as [OV OF]. destruct (ofZ_spec 1000000000) as [BV BF]; [lia|].
  assert (TB : forall c, In c (fcells k) -> ffin (t c) = true /\ f2R (t c) <= 0 /\ Rabs (f2R (t c)) <= b2 63 /\ (f2R (fdiv (fe k (fst c) (snd c)) (Chi2FModel.fexp in_turn k (fst c) (snd c))) <= 1 - u53 -> f2R (t c) < 0)).
  { intros c Hc. specialize (CO c Hc). apply andb_true_iff in CO. destruct CO as [CO C3]. apply andb_true_iff in CO. destruct CO as [C1 C2]. apply fle_spec in C2; [|exact OF|exact C1]. apply fle_spec in C3; [|exact C1|exact BF].
    specialize (RO _ (in_map _ _ _ Hc)). apply andb_true_iff in RO. destruct RO as [RO R3]. apply andb_true_iff in RO. destruct RO as [R1 R2]. apply fle_spec in R2; [|exact HF|exact R1]. apply fle_spec in R3; [|exact R1|exact OF].
    apply gterm_below; try assumption; [|lra]. rewrite OV in C2. rewrite BV in C3. split; [exact C2|]. eapply Rle_trans; [exact C3|]. apply Rle_trans with (b2 30); [change (b2 30) with 1073741824; lra|apply bpow_le; lia]. }
  assert (LK : length (map t (fcells k)) = 6%nat) by (rewrite map_length; unfold fcells; rewrite prod_length, !idx_length, S1, S2; reflexivity).
  assert (SB : lsum (fun x => Rabs (f2R x)) (map t (fcells k)) <= b2 500).
  { apply Rle_trans with (lsum (fun _ : f64 => b2 63) (map t (fcells k))).
    - apply lsum_le. intros x Hx. apply in_map_iff in Hx. destruct Hx as (c & <- & Hc). apply (TB c Hc).
    - rewrite lsum_const, LK. apply Rle_trans with (b2 3 * b2 63); [apply Rmult_le_compat_r; [apply bpow_ge_0|cbn; lra]|]. rewrite <- bpow_plus. apply bpow_le. lia. }
  assert (LU : INR (length (map t (fcells k))) * u53 <= 1 / 4) by (rewrite LK; unfold u53; cbn; lra).
  destruct (added_signed _ _ (in_turn_ok STerms (map t (fcells k)))) as [F _]; [intros x Hx; apply in_map_iff in Hx; destruct Hx as (c & <- & Hc); apply (TB c Hc)|exact LU|exact SB|].
  split; [exact F|].
  destruct (added_below _ _ (in_turn_ok STerms (map t (fcells k)))) as [_ B]; [intros x Hx; apply in_map_iff in Hx; destruct Hx as (c & <- & Hc); split; apply (TB c Hc)|exact LU|exact SB|].
  apply existsb_exists in RX. destruct RX as (q & Hq & RX). pose proof (RO q Hq) as RQ. apply in_map_iff in Hq. destruct Hq as (c & E & Hc). apply andb_true_iff in RQ. destruct RQ as [RQ _]. apply andb_true_iff in RQ. destruct RQ as [RQ _].
  destruct (flit_spec 9007199254740991 (-53)) as [LV LF]; try lia. fold below_one in LV, LF. apply fle_spec in RX; [|exact RQ|exact LF]. rewrite LV in RX. change (bpow radix2 (-53)) with (/ 9007199254740992) in RX.
  apply Rle_lt_trans with (f2R (t c)); [apply B, in_map, Hc|]. apply (TB c Hc). rewrite E. unfold u53. lra.
Qed.

(** ** the hypotheses are met *)
(** a correctly rounded logarithm *)
Definition float_of (x : R) : f64 := binary_normalize 53 1024 _ _ mode_NE (Ztrunc (scaled_mantissa radix2 (SpecFloat.fexp 53 1024) (rnd x))) (cexp radix2 (SpecFloat.fexp 53 1024) (rnd x)) false.
Lemma float_of_spec : forall x e, (-1074 <= e < 1024)%Z -> Rabs x <= bpow radix2 e -> f2R (float_of x) = rnd x /\ ffin (float_of x) = true.
Proof.
  intros x e He B. unfold float_of. generalize (binary_normalize_correct 53 1024 _ _ mode_NE (Ztrunc (scaled_mantissa radix2 (SpecFloat.fexp 53 1024) (rnd x))) (cexp radix2 (SpecFloat.fexp 53 1024) (rnd x)) false). cbv zeta.
  pose proof (fmt_rnd x) as FM. unfold fmt, generic_format in FM. rewrite <- FM.
  change (round radix2 (SpecFloat.fexp 53 1024) (round_mode mode_NE) (rnd x)) with (rnd (rnd x)). rewrite (rnd_id _ (fmt_rnd x)).
  rewrite Rlt_bool_true by (apply (rnd_no_ovf _ _ He B)). intros (H1 & H2 & _). split; assumption.
Qed.
Lemma fmt_below_one : forall x, fmt x -> x < 1 -> x <= 1 - u53.
Proof.
  intros x F L. pose proof (pred_ge_gt radix2 (SpecFloat.fexp 53 1024) x 1 F ltac:(apply (fmt_IZR 1); lia) L) as P. eapply Rle_trans; [exact P|].
  change 1 with (bpow radix2 0). rewrite pred_bpow. change (SpecFloat.fexp 53 1024 0) with (-53)%Z. rewrite <- u53_b2. lra.
Qed.
Lemma fmt_above_one : forall x, fmt x -> 1 < x -> 1 + u53 <= x.
Proof.
  intros x F L. pose proof (succ_le_lt radix2 (SpecFloat.fexp 53 1024) 1 x ltac:(apply (fmt_IZR 1); lia) F L) as P. eapply Rle_trans; [|exact P].
  rewrite succ_eq_pos by lra. assert (E : Ulp.ulp radix2 (SpecFloat.fexp 53 1024) 1 = b2 (-52)). { change 1 with (bpow radix2 0) at 1. rewrite ulp_bpow. reflexivity. } rewrite E, <- u53_b2. apply Rplus_le_compat_l. apply bpow_le. lia.
Qed.
Theorem C102_log_exists : good_log (fun x => float_of (ln (f2R x))).
Proof.
  intros x F P. pose proof u53_pos as U. assert (PI : 0 < / f2R x) by (apply Rinv_0_lt_compat; exact P).
  assert (XB : f2R x < bpow radix2 1024) by (pose proof (abs_B2R_lt_emax 53 1024 x) as Q; change (B2R x) with (f2R x) in Q; rewrite Rabs_pos_eq in Q by lra; exact Q).
  assert (XL : bpow radix2 (-1074) <= f2R x). { apply (generic_format_ge_bpow radix2 (SpecFloat.fexp 53 1024) (-1074)); [|exact P|apply fmt_B2R]. intros e. rewrite fexp_FLT. unfold FLT_exp. lia. }
  assert (LB : forall y, 0 < y -> y <= bpow radix2 1074 -> ln y <= 1074).
  { intros y Y1 Y2. apply Rle_trans with (ln (bpow radix2 1074)); [destruct Y2 as [Y2| ->]; [left; apply ln_increasing; assumption|lra]|]. rewrite bpow_exp, ln_exp. change (IZR radix2) with 2. pose proof (ln_sub1 2 ltac:(lra)). lra. }
  assert (B1 : ln (f2R x) <= 1074) by (apply LB; [exact P|]; left; eapply Rlt_le_trans; [exact XB|apply bpow_le; lia]).
  assert (B2 : - ln (f2R x) <= 1074). { rewrite <- ln_Rinv by exact P. apply LB; [exact PI|]. change 1074%Z with (- (-1074))%Z. rewrite bpow_opp. apply Rinv_le_contravar; [apply bpow_gt_0|exact XL]. }
  destruct (float_of_spec (ln (f2R x)) 11 ltac:(lia)) as [V FF]; [change (bpow radix2 11) with 2048; apply Rabs_le; lra|]. split; [exact FF|]. rewrite V.
  destruct (Req_dec (f2R x) 1) as [E|NE]; [rewrite E, ln_1, rnd_0, Rminus_0_r, Rabs_R0; lra|].
  assert (AB : u53 / 2 <= Rabs (ln (f2R x))).
  { destruct (Rlt_or_le (f2R x) 1) as [L|L].
    - pose proof (fmt_below_one _ (fmt_B2R x) L) as Q. pose proof (ln_sub1 _ P). rewrite Rabs_left1; unfold f2R in *; lra.
    - destruct L as [L|L]; [|congruence]. pose proof (fmt_above_one _ (fmt_B2R x) L) as Q. change (B2R x) with (f2R x) in Q. pose proof (ln_sub1 _ PI) as W. rewrite ln_Rinv in W by exact P.
      assert (I : / f2R x <= 1 - u53 / 2). { apply Rle_trans with (/ (1 + u53)); [apply Rinv_le_contravar; lra|]. apply Rmult_le_reg_r with (1 + u53); [lra|]. rewrite Rinv_l by lra. nra. }
      rewrite Rabs_pos_eq; lra. }
  destruct (rel_err (ln (f2R x))) as (e1 & E1 & Q1). { eapply Rle_trans; [|exact AB]. rewrite <- u53_b2. replace (b2 (-53) / 2) with (b2 (-54)); [apply bpow_le; lia|]. replace (-54)%Z with (-53 + -1)%Z by lia. rewrite bpow_plus. change (b2 (-1)) with (/ 2). reflexivity. }
  rewrite u53_b2 in E1. rewrite Q1. replace (ln (f2R x) * (1 + e1) - ln (f2R x)) with (e1 * ln (f2R x)) by ring. rewrite Rabs_mult. apply Rmult_le_compat_r; [apply Rabs_pos|lra].
Qed.
Example C102_hyps : exists c g, get_g_64 in_turn (fun x => float_of (ln (f2R x))) (ftab t16 3) = Ok c /\ get_chi2 true (real_table (ftab t16 3)) LogLikelihood = Ok g /\ Rabs (f2R c - g) <= g_tol (real_table (ftab t16 3)) g /\ rearrangement (real_table (ftab t16 3)) [1; 0]%nat [2; 0; 1]%nat.
Proof. destruct t16_ok as (A & B & C & _ & D). destruct (C102_g_rounding in_turn _ _ in_turn_ok C102_log_exists A B C) as (c & g & H1 & H2 & H3 & H4 & H5). exists c, g. auto. Qed.
(** and so are those of [C102_independent]: a 2 by 3 table with rows in the proportion 1 : 2 *)
Definition t18 : list (list Z) := [[1; 2; 3]; [2; 4; 6]]%Z.
Example C102_independent_hyps : count_table64 (ftab t18 3) /\ has_records (real_table (ftab t18 3)) /\ independent_table (tab t18 3) /\ matsum (tab t18 3) = 18.
Proof.
  destruct (ftab_ok t18 3) as [CT ME]; try reflexivity. split; [exact CT|]. split; [destruct ME as (_ & _ & M3); exists 0%nat, 0%nat; split; [cbn; lia|]; split; [cbn; lia|]; rewrite M3 by (cbn; lia); cbn; lra|].
  assert (M : matsum (tab t18 3) = 18) by (unfold matsum, rowsum, lsum, tab, t18; cbn [nr nc el length seq fold_right nth]; lra).
  split; [|exact M]. intros i j Hi Hj. cbn [tab nr nc] in Hi, Hj. change (length t18) with 2%nat in Hi. rewrite M. unfold rowsum, colsum, lsum, tab, t18. cbn [nr nc el length seq fold_right].
  destruct i as [|[|i]]; [| |lia]; (destruct j as [|[|[|j]]]; [| | |lia]); cbn [nth]; lra.
Qed.
Lemma negative_nonzero : forall x, flt x fzero = true -> feqb x fzero = false.
Proof.
  intros x H. destruct x as [s|s| |s mm e p]; try discriminate; destruct s; try discriminate; reflexivity.
Qed.
Lemma kept_negative : forall m i j, (i < fr m)%nat -> (j < fc m)%nat -> flt (fe m i j) fzero = true -> let k := fsub (fsub m (fnz_rows m) (idx (fc m))) (idx (length (fnz_rows m))) (fnz_cols (fsub m (fnz_rows m) (idx (fc m)))) in
  existsb (fun c => flt (fe k (fst c) (snd c)) fzero) (fcells k) = true.
Proof.
  intros m i j Hi Hj N k. assert (II : In i (fnz_rows m)).
  { unfold fnz_rows. apply filter_In. split; [apply in_seq; lia|]. apply negb_true_iff. apply not_true_iff_false. intros X. rewrite forallb_forall in X. specialize (X j ltac:(apply in_seq; lia)). rewrite negative_nonzero in X by exact N. discriminate. }
  destruct (In_nth _ _ 0%nat II) as (a & A & EA). set (m1 := fsub m (fnz_rows m) (idx (fc m))) in *.
  assert (E1 : fe m1 a j = fe m i j). { unfold m1, fsub, idx; cbn [fe]. rewrite EA, seq_nth by exact Hj. reflexivity. }
  assert (J1 : In j (fnz_cols m1)).
  { unfold fnz_cols. apply filter_In. split; [apply in_seq; unfold m1, fsub, idx; cbn [fc]; rewrite seq_length; lia|]. apply negb_true_iff. apply not_true_iff_false. intros X. rewrite forallb_forall in X.
    specialize (X a ltac:(apply in_seq; unfold m1, fsub; cbn [fr]; lia)). rewrite E1, negative_nonzero in X by exact N. discriminate. }
  destruct (In_nth _ _ 0%nat J1) as (b & B & EB). apply existsb_exists. exists (a, b). split.
  - unfold fcells, k, fsub at 1 2, idx; cbn [fr fc]. rewrite seq_length. apply in_prod; apply in_seq; [lia|]. split; [lia|exact B].
  - cbn [fst snd]. unfold k, fsub at 1, idx; cbn [fe]. rewrite EB, seq_nth by exact A. cbn [Nat.add]. rewrite E1. exact N.
Qed.
(** a negative cell anywhere in the table is refused with ValueError, whatever else the table holds *)
Theorem C102_negative_cell : forall add_up flog m i j, (i < fr m)%nat -> (j < fc m)%nat -> flt (fe m i j) fzero = true -> get_g_64 add_up flog m = Raise ValueError /\ get_chi2_64 add_up m = Raise ValueError.
Proof.
  intros add_up flog m i j Hi Hj N. pose proof (kept_negative m i j Hi Hj N) as K. cbv zeta in K. change (length (fnz_rows m)) with (fr (fsub m (fnz_rows m) (idx (fc m)))) in K. split.
  - unfold get_g_64, g_contingency64. cbv zeta. rewrite K. reflexivity.
  - unfold get_chi2_64, chi2_contingency64. cbv zeta. rewrite K. reflexivity.
Qed.
