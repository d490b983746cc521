(** C112: the significance matrix in binary64 arithmetic, end to end. *)
From Coq Require Import String ZArith List Bool Reals Lra Lia Sorting.Permutation Sorting.Sorted.
From Flocq Require Import Core BinarySingleNaN.
From Verif Require Import F64 Base Cells BinModel HistModel SpecHist HistProofs RSum StatsModel SpecStats StatsProofs BinDataProofs PhikModel SpecPhik PairMatProofs PhikMatProofs PhikInvProofs OverviewProofs FrameProofs BrentFModel BrentFProofs Chi2FModel SpecChi2F Chi2FProofs Chi2FProofs3 GStatModel SigFModel ZTailModel GlobFModel MCFModel SpecMCF PropsMCF HybFModel PropsHybF PropsChernF PropsGStat GStatProofs SpecGStat LinspaceProofs PropsChi2F PhikMatFModel SpecMatF PropsMatF SigMatFModel SpecSigMatF PropsHist PropsSimF PropsStats HybFProofs.
Import ListNotations Chi2FModel SpecChi2F.
Open Scope list_scope.

(** * the mean of one or two values, whatever they are *)
Lemma same_refl : forall x, same_value x x.
Proof. intros x. unfold same_value, same_number. destruct (ffin x); auto. Qed.
Lemma plus_zero_any : forall x, same_value (fplus fzero x) x.
Proof. intros [[|]|[|]| |s m e p]; try (right; split; reflexivity); try (left; repeat split; reflexivity). Qed.
Lemma minus_zero_any : forall x, same_value (fminus x fzero) x.
Proof. intros [[|]|[|]| |s m e p]; try (right; split; reflexivity); try (left; repeat split; reflexivity). Qed.
Lemma same_trans : forall x y z, same_value x y -> same_value y z -> same_value x z.
Proof. intros x y z [(A & B & C)|[A ->]] [(D & E & F)|[D <-]]; unfold same_value, same_number; try congruence; [left; repeat split; congruence|right; auto]. Qed.
Lemma one_pos : exists m e p, ofZ 1 = (B754_finite false m e p : f64).
Proof.
  destruct (ofZ_spec 1) as [V F]; [simpl; lia|]. destruct (ofZ 1) as [s|s| |s m e p]; try discriminate F; [cbn in V; lra|].
  destruct s; [|exists m, e, p; reflexivity]. exfalso. unfold f2R in V. cbn [B2R] in V. assert (F2R (Float radix2 (cond_Zopp true (Zpos m)) e) < 0)%R by (apply F2R_lt_0; reflexivity). lra.
Qed.
Lemma fin_lt : forall x, ffin x = true -> (Rabs (f2R x) < bpow radix2 1024)%R.
Proof. intros x _. apply abs_B2R_lt_emax. Qed.
Lemma div_one_any : forall x, same_value (fdiv x (ofZ 1)) x.
Proof.
  intros x. destruct (ffin x) eqn:F.
  - left. destruct (ofZ_spec 1) as [V G]; [simpl; lia|]. pose proof (Bdiv_correct 53 1024 _ _ mode_NE x (ofZ 1)) as H. change (Bdiv mode_NE x (ofZ 1)) with (fdiv x (ofZ 1)) in H. change (B2R (ofZ 1)) with (f2R (ofZ 1)) in H. rewrite V in H. specialize (H ltac:(lra)).
    replace (B2R x / 1)%R with (B2R x) in H by field. rewrite round_generic in H; [|apply valid_rnd_N|apply generic_format_B2R]. rewrite Rlt_bool_true in H by (apply fin_lt; exact F). destruct H as (H1 & H2 & _). repeat split; [|exact F|exact H1]. unfold ffin in *. rewrite H2. exact F.
  - right. destruct one_pos as (m & e & p & ->). destruct x as [s|s| |s m' e' p']; try discriminate F; [destruct s|]; split; reflexivity.
Qed.
Lemma mean_one_any : forall comp x, same_value (fmean comp [x]) x.
Proof.
  intros comp x. unfold fmean. cbn [fold_left length Z.of_nat Pos.of_succ_nat]. eapply same_trans; [apply div_one_any|].
  destruct comp; cbn [sum_step fst]; [|apply plus_zero_any]. eapply same_trans; [apply plus_zero_any|apply minus_zero_any].
Qed.

Lemma two_pos : exists m e p, ofZ 2 = (B754_finite false m e p : f64).
Proof.
  destruct (ofZ_spec 2) as [V F]; [simpl; lia|]. destruct (ofZ 2) as [s|s| |s m e p]; try discriminate F; [cbn in V; lra|].
  destruct s; [|exists m, e, p; reflexivity]. exfalso. unfold f2R in V. cbn [B2R] in V. assert (F2R (Float radix2 (cond_Zopp true (Zpos m)) e) < 0)%R by (apply F2R_lt_0; reflexivity). lra.
Qed.
Lemma fmt_twice : forall x : f64, rnd (f2R x + f2R x) = (f2R x + f2R x)%R.
Proof.
  intros x. apply rnd_id. pose proof (generic_format_B2R 53 1024 x) as G. change (generic_format radix2 (FLT_exp (-1074) 53) (f2R x)) in G. apply FLT_format_generic in G; [|reflexivity]. destruct G as [[m e] G1 G2 G3]. cbn [Fnum Fexp] in *.
  rewrite G1. unfold F2R. cbn [Fnum Fexp]. replace (IZR m * bpow radix2 e + IZR m * bpow radix2 e)%R with (IZR m * bpow radix2 (e + 1))%R by (rewrite bpow_plus; change (bpow radix2 1) with 2%R; ring).
  apply fmt_F2R; [change (radix2 ^ 53)%Z with (2 ^ 53)%Z in G2; lia|lia].
Qed.
Lemma fin_same : forall x y, ffin x = true -> same_value y x -> ffin y = true /\ f2R y = f2R x.
Proof. intros x y F [(A & B & C)|[A ->]]; [auto|congruence]. Qed.
Lemma mean_two : forall comp x, ffin x = true -> (Rabs (f2R x) <= bpow radix2 1022)%R -> same_value (fmean comp [x; x]) x.
Proof.
  intros comp x F B. unfold fmean. cbn [fold_left length Z.of_nat Pos.of_succ_nat Pos.succ].
  assert (B2 : (Rabs (f2R x + f2R x) <= bpow radix2 1023)%R). { eapply Rle_trans; [apply Rabs_triang|]. replace (bpow radix2 1023) with (bpow radix2 1022 + bpow radix2 1022)%R; [lra|]. change 1023%Z with (1 + 1022)%Z. rewrite bpow_plus. change (bpow radix2 1) with 2%R. lra. }
  assert (Y : ffin (fst (sum_step comp (sum_step comp (fzero, fzero) x) x)) = true /\ f2R (fst (sum_step comp (sum_step comp (fzero, fzero) x) x)) = (f2R x + f2R x)%R).
  { destruct comp; cbn [sum_step fst].
    - destruct (fin_same x _ F (minus_zero_any x)) as [F1 V1]. set (y := fminus x fzero) in *. destruct (fin_same y _ F1 (plus_zero_any y)) as [F2 V2]. set (t := fplus fzero y) in *.
      destruct (fin_same t _ F2 (minus_zero_any t)) as [F3 V3]. set (w := fminus t fzero) in *.
      destruct (fminus_spec w y 0 F3 F1 ltac:(lia)) as [V4 F4]. { rewrite V3, V2, Rminus_eq_0, Rabs_R0. apply bpow_ge_0. } rewrite V3, V2, Rminus_eq_0, rnd_id in V4 by (apply (fmt_IZR 0); simpl; lia).
      set (c := fminus w y) in *. assert (E5 : (f2R x - f2R c = f2R x)%R) by lra.
      destruct (fminus_spec x c 1022 F F4 ltac:(lia)) as [V5 F5]; [rewrite E5; exact B|]. rewrite E5, rnd_id in V5 by apply fmt_B2R. set (y2 := fminus x c) in *.
      assert (E6 : (f2R t + f2R y2 = f2R x + f2R x)%R) by lra. destruct (fplus_spec t y2 1023 F2 F5 ltac:(lia)) as [V6 F6]; [rewrite E6; exact B2|]. rewrite E6, fmt_twice in V6. auto.
    - destruct (fin_same x _ F (plus_zero_any x)) as [F1 V1]. set (t := fplus fzero x) in *. assert (E6 : (f2R t + f2R x = f2R x + f2R x)%R) by lra. destruct (fplus_spec t x 1023 F1 F ltac:(lia)) as [V6 F6]; [rewrite E6; exact B2|]. rewrite E6, fmt_twice in V6. auto. }
  destruct Y as [Y1 Y2]. set (y := fst _) in *. clearbody y. destruct (ofZ_spec 2) as [O1 O2]; [simpl; lia|]. assert (E : (f2R y / f2R (ofZ 2) = f2R x)%R) by (rewrite O1, Y2; field).
  destruct (fdiv_spec y (ofZ 2) 1022 Y1) as [V G]; [rewrite O1; lra|lia|rewrite E; exact B|]. rewrite E, rnd_id in V by apply fmt_B2R. left. repeat split; assumption.
Qed.
Lemma mean_two_inf : forall comp x, ffin x = false -> fisnan x = false -> fmean comp [x; x] = if comp then fnan else x.
Proof.
  intros comp x F N. unfold fmean. cbn [fold_left length Z.of_nat Pos.of_succ_nat Pos.succ]. destruct two_pos as (m & e & p & ->). destruct x as [s|s| |s m' e' p']; try discriminate. destruct comp, s; reflexivity.
Qed.

Lemma group_diag : forall (G : (string * col) * (string * col) -> f64) a l,
  fgroup (flong (map (fun pq => (fst (fst pq), fst (snd pq), G pq)) l)) a a = filter (fun v => negb (fisnan v)) (flat_map (fun pq => [G pq; G pq]) (filter (matches a a) l)).
Proof.
  intros G a l. unfold fgroup, flong. induction l as [|[[n0 x0] [n1 x1]] l IH]; [reflexivity|]. cbn [map flat_map fst snd app].
  set (t := flat_map _ (map _ l)) in *. cbn [filter fst snd]. change (matches a a (n0, x0, (n1, x1))) with ((String.eqb n0 a && String.eqb n1 a) || (String.eqb n1 a && String.eqb n0 a)).
  destruct (String.eqb_spec n0 a), (String.eqb_spec n1 a); cbn [andb orb]; try exact IH. cbn [flat_map app filter]. destruct (fisnan (G (n0, x0, (n1, x1)))); cbn [negb map snd]; rewrite IH; reflexivity.
Qed.

Section Main.
  Variable percentile : list f64 -> f64 -> f64.
  Variable add_up : site -> list f64 -> f64.
  Variable add_mean : list f64 -> f64.
  Variables flog fppf : f64 -> f64.
  Variable fsf : f64 -> f64 -> f64.
  Variable fnsf : f64 -> f64 -> f64 -> f64.
  Variable ffit : list f64 -> f64.
  Hypothesis AO : any_order add_up.
  Hypothesis GL : good_log flog.
  Notation tables := (signif_tables64 percentile add_up add_mean flog fppf fsf fnsf ffit).
  Notation calc := (calc_signif_64 percentile add_up add_mean flog fppf fsf fnsf ffit).
  Notation rebinned := (signif_rebinned_64 percentile add_up add_mean flog fppf fsf fnsf ffit).

  (** a table of a moderate frame *)
  Lemma table_fit : forall recs h seen kr kc, is_table_of seen recs h -> (INR (length recs) <= 8796093022208)%R ->
    (length kr <= 1024)%nat -> (length kc <= 1024)%nat -> (forall a, In a (h_rows h) -> In a kr) -> (forall a, In a (h_cols h) -> In a kc) -> proper_shape (hmat h) -> fit_for_mc (hmat64 h).
  Proof.
    intros recs h seen kr kc HT HN LR LC IR IC PS. destruct (real_hmat seen recs h HT HN) as [RE CT].
    assert (DR : (length (h_rows h) <= 1024)%nat). { eapply Nat.le_trans; [|exact LR]. apply NoDup_incl_length; [apply ssorted_NoDup; apply HT|exact IR]. }
    assert (DC : (length (h_cols h) <= 1024)%nat). { eapply Nat.le_trans; [|exact LC]. apply NoDup_incl_length; [apply ssorted_NoDup; apply HT|exact IC]. }
    assert (TL : (matsum (hmat h) <= 8796093022208)%R). { rewrite (matsum_total _ _ _ HT). eapply Rle_trans; [apply le_INR, (total_le _ _ _ HT)|exact HN]. }
    split; [exact CT|]. rewrite RE. split; [eapply hmat_records; [exact HT|]; destruct PS; lia|]. split; [lra|].
    replace 1048576%R with (INR (1024 * 1024)) by (rewrite mult_INR; simpl INR; lra). apply le_INR. cbn [hmat nr nc]. apply Nat.mul_le_mono; assumption.
  Qed.
  Lemma pair_fit : forall f d u o p q, moderate_frame f -> In p f -> In q f -> let h := crosstab (combine (map (clean1 d u o) (c_cells (snd p))) (map (clean1 d u o) (c_cells (snd q)))) in
     is_table_of (counted_as d u o) (combine (c_cells (snd p)) (c_cells (snd q))) h /\ (proper_shape (hmat h) -> fit_for_mc (hmat64 h)).
  Proof.
    intros f d u o [c0 x] [c1 y] (n & HN & MF) Hp Hq h. cbn [snd] in *. assert (HT : is_table_of (counted_as d u o) (combine (c_cells x) (c_cells y)) h) by apply clean_table. split; [exact HT|]. intros PS.
    destruct (MF _ Hp) as (LX & kx & KX1 & KX2). destruct (MF _ Hq) as (LY & ky & KY1 & KY2). cbn [snd] in *.
    apply (table_fit (combine (c_cells x) (c_cells y)) h (counted_as d u o) (map (clean1 d u o) kx) (map (clean1 d u o) ky)); try assumption; try (rewrite map_length; assumption).
    - rewrite combine_length, LX, LY, Nat.min_id. exact HN.
    - intros a Ha. apply in_rows in Ha. destruct Ha as ([r1 r2] & Hr & _ & <-). apply in_combine_l in Hr. apply in_map_iff in Hr. destruct Hr as (r & <- & Hr). cbn [fst]. apply in_map. apply KX2. exact Hr.
    - intros a Ha. apply in_cols in Ha. destruct Ha as ([r1 r2] & Hr & _ & <-). apply in_combine_r in Hr. apply in_map_iff in Hr. destruct Hr as (r & <- & Hr). cbn [snd]. apply in_map. apply KY2. exact Hr.
  Qed.
  (** the only error for a table that fits is ValueError, and only in the Chernoff formula *)
  Lemma tables_error : forall s lam m ms e, fit_for_mc m -> (forall m', In m' ms -> fit_for_mc m') -> tables s lam m ms = Raise e -> e = ValueError /\ s <> MC.
  Proof.
    intros s lam m ms e Hm Hs. destruct (stat_ok add_up flog lam m AO GL Hm) as (c & E & _). destruct s; cbn [signif_tables64].
    - rewrite E. cbn [rbind]. intros X. split; [|discriminate]. exact (proj2 (C104_only_value_error flog fppf fsf c (ndof64 m) None e) X).
    - unfold mc_from_tables64. rewrite E. destruct (stats_ok add_up flog lam ms AO GL Hs) as (cs & -> & _). discriminate.
    - intros X. split; [|discriminate]. destruct (C111_errors add_up add_mean flog fppf fsf fnsf ffit lam m ms e AO GL) as [Q _]; [intros m' [<- | H]; left; auto|]. exact (Q X).
  Qed.
  Lemma rebinned_main : forall comp f s lam sims d u o, moderate_frame f -> NoDup (keys f) -> (forall c0 c1 m, In m (sims c0 c1) -> fit_for_mc m) ->
    let Z h c0 c1 := tables s lam (hmat64 h) (sims c0 c1) in
    match rebinned comp f s lam sims d u o with
    | Ok t => sig_matrix_of Z comp d u o f t
    | Raise e => e = ValueError /\ s <> MC /\ sig_error_of Z d u o f
    end.
  Proof.
    intros comp f s lam sims d u o MF ND HS Z. unfold signif_rebinned_64. set (f' := clean d u o f). set (cl := fun p : string * col => (fst p, mkCol (c_num (snd p)) (map (clean1 d u o) (c_cells (snd p))))).
    assert (KF : keys f' = keys f) by apply keys_clean. assert (ND' : NoDup (keys f')) by (rewrite KF; exact ND). assert (FC : f' = map cl f) by reflexivity.
    assert (PSD : forall h, is01 (length (h_rows h)) || is01 (length (h_cols h)) = false -> proper_shape (hmat h)).
    { intros h B. destruct (le_dec 2 (nr (hmat h))), (le_dec 2 (nc (hmat h))); try (split; assumption); exfalso; assert (X : ~ proper_shape (hmat h)) by (intros [? ?]; contradiction); apply is01_proper in X; congruence. }
    assert (EC : combos f' = map (fun pq => (cl (fst pq), cl (snd pq))) (combos f)) by (rewrite FC, combos_map; reflexivity).
    destruct (mapM (fun pq => calc s lam sims (fst pq) (snd pq)) (combos f')) as [vals|e] eqn:EM; cbn [rbind].
    - set (G := fun pq : (string * col) * (string * col) => match calc s lam sims (fst pq) (snd pq) with Ok r => snd r | Raise _ => fnan end).
      assert (GV : forall pq, In pq (combos f') -> calc s lam sims (fst pq) (snd pq) = Ok (fst (fst pq), fst (snd pq), G pq)).
      { assert (AL : forall l vs, mapM (fun pq => calc s lam sims (fst pq) (snd pq)) l = Ok vs -> forall pq, In pq l -> exists v, calc s lam sims (fst pq) (snd pq) = Ok v).
        { intros l vs H. apply Base.mapM_ok in H. induction H as [|a b l vs H HS' IH]; intros pq I; [destruct I|]. destruct I as [<- |I]; [exists b; exact H|apply IH; exact I]. }
        intros [[c0 x] [c1 y]] I. destruct (AL _ _ EM _ I) as (v & V). unfold G. cbn [fst snd] in *. rewrite V. unfold calc_signif_64 in V.
        destruct (_ || _); [injection V as <-; reflexivity|]. destruct (tables _ _ _ _); [|discriminate]. injection V as <-. reflexivity. }
      assert (EV : vals = map (fun pq => (fst (fst pq), fst (snd pq), G pq)) (combos f')).
      { rewrite (mapM_all_ok _ _ _ (fun pq => (fst (fst pq), fst (snd pq), G pq)) _ GV) in EM. congruence. }
      set (l := keys f') in *. set (t := mkFT l l (map (fun a => map (fun b => fmean comp (fgroup (flong vals) a b)) l) l)).
      replace (match vals with [] => mkFT l l (map (fun _ => map (fun _ => fnan) l) l) | _ :: _ => t end) with t by (destruct vals; reflexivity).
      assert (VAL : forall a b, fval t a b = if in_dec string_dec a l then if in_dec string_dec b l then fmean comp (fgroup (flong vals) a b) else fnan else fnan) by (intros a b; apply fval_grid).
      (* the value computed for a pair of columns *)
      assert (GP : forall p q h, In p f -> In q f -> In (cl p, cl q) (combos f') -> is_table_of (counted_as d u o) (combine (c_cells (snd p)) (c_cells (snd q))) h ->
        (~ proper_shape (hmat h) /\ G (cl p, cl q) = fnan) \/ (proper_shape (hmat h) /\ exists pv, Z h (fst p) (fst q) = Ok (pv, G (cl p, cl q)))).
      { intros p q h Hp Hq HC HT. destruct (pair_fit f d u o p q MF Hp Hq) as [HT2 _]. rewrite (is_table_unique _ _ _ _ HT HT2). set (h2 := crosstab _) in *. pose proof (GV _ HC) as V. cbn [fst snd] in V. destruct p as [c0 x], q as [c1 y]. unfold cl in V. cbn [fst snd] in V, h2 |- *. unfold calc_signif_64 in V. cbn [c_cells] in V. fold h2 in V.
        destruct (is01 (length (h_rows h2)) || is01 (length (h_cols h2))) eqn:B.
        - left. split; [apply is01_proper; exact B|]. injection V as V. symmetry. exact V.
        - right. split; [apply PSD; exact B|]. unfold Z. destruct (tables s lam (hmat64 h2) (sims c0 c1)) as [[pv z]|]; [|discriminate]. cbn [rbind snd] in V. injection V as V. exists pv. rewrite V. reflexivity. }
      unfold sig_matrix_of. split; [exact KF|]. split; [exact KF|]. split; [cbn [t ft_cells]; rewrite map_length, KF; unfold keys; apply map_length|]. split.
      { intros row H. cbn [t ft_cells] in H. apply in_map_iff in H. destruct H as (a & <- & _). rewrite map_length, KF. unfold keys. apply map_length. }
      split; [intros a b; rewrite !VAL, EV, group_swap; destruct (in_dec string_dec a l), (in_dec string_dec b l); reflexivity|]. split.
      + intros c0 x c1 y h HP HT. pose proof (pair_ne _ _ _ _ _ ND HP) as NE. destruct (pair_in _ _ _ _ _ HP) as [Hx Hy]. set (p := cl (c0, x)). set (q := cl (c1, y)).
        assert (HC : In (p, q) (combos f')). { rewrite EC. apply in_map_iff. exists ((c0, x), (c1, y)). split; [reflexivity|apply combos_pair; exact HP]. }
        destruct (combos_In _ _ _ _ HC) as [Hp Hq].
        assert (TV : fval t c0 c1 = fmean comp (filter (fun v => negb (fisnan v)) [G (p, q)])).
        { rewrite VAL. destruct (in_dec string_dec c0 l) as [_|N]; [|exfalso; apply N; apply (in_map fst _ p Hp)]. destruct (in_dec string_dec c1 l) as [_|N]; [|exfalso; apply N; apply (in_map fst _ q Hq)].
          rewrite EV, group_ne by exact NE. change c0 with (fst p). change c1 with (fst q). rewrite (filter_pair f' p q ND' HC NE). reflexivity. }
        destruct (GP (c0, x) (c1, y) h Hx Hy HC HT) as [[PS E]|(PS & pv & E)]; fold p q in E.
        * left. split; [exact PS|]. rewrite TV, E. reflexivity.
        * right. split; [exact PS|]. exists pv, (G (p, q)). split; [exact E|]. rewrite TV. cbn [filter]. destruct (fisnan (G (p, q))) eqn:N; cbn [negb]; [|apply mean_one_any]. destruct (G (p, q)); try discriminate N. right. split; reflexivity.
      + intros c x h Hx HT. set (p := cl (c, x)). assert (Hp : In p f') by (rewrite FC; apply in_map; exact Hx). assert (HC : In (p, p) (combos f')) by (destruct (combos_total _ _ p p Hp Hp); assumption).
        assert (TV : fval t c c = fmean comp (filter (fun v => negb (fisnan v)) [G (p, p); G (p, p)])).
        { rewrite VAL. destruct (in_dec string_dec c l) as [_|N]; [|exfalso; apply N; apply (in_map fst _ p Hp)]. rewrite EV, group_diag. change c with (fst p). rewrite (filter_diag f' p ND' Hp). reflexivity. }
        destruct (GP (c, x) (c, x) h Hx Hx HC HT) as [[PS E]|(PS & pv & E)]; fold p in E.
        * left. split; [exact PS|]. rewrite TV, E. reflexivity.
        * right. split; [exact PS|]. exists pv, (G (p, p)). split; [exact E|]. rewrite TV. cbn [filter]. destruct (fisnan (G (p, p))) eqn:N; cbn [negb].
          -- split; [|discriminate]. intros _. destruct (G (p, p)); try discriminate N. right. split; reflexivity.
          -- split; [intros [[F B]|X]; [apply mean_two; assumption|discriminate]|intros F _; apply mean_two_inf; assumption].
    - apply mapM_raise in EM. destruct EM as (pq' & I & E). rewrite EC in I. apply in_map_iff in I. destruct I as ([p q] & <- & I). cbn [fst snd] in E. destruct (combos_In _ _ _ _ I) as [Hx Hy]. destruct (pair_fit f d u o p q MF Hx Hy) as [HT PF].
      destruct p as [c0 x], q as [c1 y]. unfold cl in E. cbn [fst snd] in *. unfold calc_signif_64 in E. cbn [c_cells] in E. set (h := crosstab _) in *.
      destruct (is01 (length (h_rows h)) || is01 (length (h_cols h))) eqn:B; [discriminate|]. destruct (tables s lam (hmat64 h) (sims c0 c1)) as [v|e2] eqn:T; [discriminate|]. cbn [rbind] in E. injection E as <-.
      destruct (tables_error s lam (hmat64 h) (sims c0 c1) e2 (PF (PSD _ B)) (HS c0 c1) T) as [-> NM]. split; [reflexivity|]. split; [exact NM|]. exists c0, x, c1, y, h. split; [exact Hx|]. split; [exact Hy|]. split; [exact HT|]. split; [apply PSD; exact B|exact T].
  Qed.
End Main.

(** Whatever the data, the method and the libraries: the matrix is as specified, with the Z-value of [significance_from_hist2d]; the only error is a
    ValueError of the formula for p-values of 0, and the MC method does not raise. *)
Theorem C112_rebinned : forall percentile add_up add_mean flog fppf fsf fnsf ffit comp f s lam sims d u o, any_order add_up -> good_log flog ->
  moderate_frame f -> NoDup (keys f) -> (forall c0 c1 m, In m (sims c0 c1) -> fit_for_mc m) ->
  let Z h c0 c1 := signif_tables64 percentile add_up add_mean flog fppf fsf fnsf ffit s lam (hmat64 h) (sims c0 c1) in
  match signif_rebinned_64 percentile add_up add_mean flog fppf fsf fnsf ffit comp f s lam sims d u o with
  | Ok t => sig_matrix_of Z comp d u o f t
  | Raise e => e = ValueError /\ s <> MC /\ sig_error_of Z d u o f
  end.
Proof. intros percentile add_up add_mean flog fppf fsf fnsf ffit comp f s lam sims d u o AO GL. apply rebinned_main; assumption. Qed.
Print Assumptions C112_rebinned.

(** significance_matrix itself: after the check of the columns and the binning of the interval columns (whose errors pass through) *)
Theorem C112_matrix : forall percentile add_up add_mean flog fppf fsf fnsf ffit comp npq df interval_cols s lam sims bins d u o, any_order add_up -> good_log flog ->
  NoDup (keys df) -> (forall c0 c1 m, In m (sims c0 c1) -> fit_for_mc m) ->
  let Z h c0 c1 := signif_tables64 percentile add_up add_mean flog fppf fsf fnsf ffit s lam (hmat64 h) (sims c0 c1) in
  let ic := match interval_cols with Some l => l | None => guess_interval_cols df end in
  let survives (p : string * col) := Nat.leb 2 (nunique (snd p)) || (Nat.eqb (nunique (snd p)) 1 && negb d && negb (mem (fst p) ic)) in
  let kept := filter survives df in
  let binned := bin_data npq kept (filter (fun c => mem c (keys kept)) ic) bins false in
  match signif_matrix_64 percentile add_up add_mean flog fppf fsf fnsf ffit comp npq df interval_cols s lam sims bins d u o with
  | Ok t => exists f dict, binned = Ok (f, dict) /\ keys f = keys kept /\ (moderate_frame f -> sig_matrix_of Z comp d u o f t)
  | Raise e => binned = Raise e \/ exists f dict, binned = Ok (f, dict) /\ (moderate_frame f -> e = ValueError /\ s <> MC /\ sig_error_of Z d u o f)
  end.
Proof.
  intros percentile add_up add_mean flog fppf fsf fnsf ffit comp npq df icol s lam sims bins d u o AO GL N HS Z ic survives kept binned. unfold signif_matrix_64. fold ic. destruct (dq_nunique_spec df ic d N) as [E1 E2]. fold survives in E1, E2. fold kept in E1, E2.
  destruct (dq_check_nunique_values df ic d) as [cdf ic'] eqn:E. cbn [fst snd] in E1, E2. subst cdf ic'. fold binned. destruct binned as [[f dict]|e] eqn:B; cbn [rbind fst]; [|left; reflexivity].
  unfold binned in B. pose proof (bin_data_spec _ _ _ _ _ _ _ B) as (K & _). assert (NF : NoDup (keys f)) by (rewrite K; apply nodup_keys_filter; exact N).
  pose proof (fun MF => C112_rebinned percentile add_up add_mean flog fppf fsf fnsf ffit comp f s lam sims d u o AO GL MF NF HS) as H. cbv zeta in H. fold Z in H. destruct (signif_rebinned_64 _ _ _ _ _ _ _ _ _ _ _ _ _ _ _ _) as [t|e].
  - exists f, dict. split; [reflexivity|]. split; [exact K|exact H].
  - right. exists f, dict. split; [reflexivity|exact H].
Qed.
Print Assumptions C112_matrix.

(** What stands behind an entry with the asymptotic method: the statistic is the exact one of the contingency table up to the rounding error, the number of degrees
    of freedom is exactly (rows - 1) * (columns - 1), and Z is -ppf of the p-value, or Chernoff's formula when the p-value is 0. *)
Theorem C112_asymptotic : forall percentile add_up add_mean flog fppf fsf fnsf ffit lam f d u o c0 x c1 y h sims, any_order add_up -> good_log flog -> moderate_frame f -> In (c0, x) f -> In (c1, y) f ->
  is_table_of (counted_as d u o) (combine (c_cells x) (c_cells y)) h -> proper_shape (hmat h) ->
  exists c chi k, get_chi2 true (hmat h) lam = Ok chi /\ ffin c = true /\ (Rabs (f2R c - chi) <= match lam with Pearson => chi2_tol (hmat h) chi | LogLikelihood => g_tol (hmat h) chi end)%R /\
    ffin k = true /\ f2R k = INR ((length (h_rows h) - 1) * (length (h_cols h) - 1)) /\
    signif_tables64 percentile add_up add_mean flog fppf fsf fnsf ffit Asymptotic lam (hmat64 h) sims =
      (if feqb (fsf c k) fzero then rmap (fun z => (fsf c k, z)) (chernoff64 flog c k None) else Ok (fsf c k, fopp (fppf (fsf c k)))).
Proof.
  intros percentile add_up add_mean flog fppf fsf fnsf ffit lam f d u o c0 x c1 y h sims AO GL MF Hx Hy HT PS. destruct (pair_fit f d u o (c0, x) (c1, y) MF Hx Hy) as [HT2 PF]. cbn [snd] in HT2, PF.
  rewrite <- (is_table_unique _ _ _ _ HT HT2) in PF. specialize (PF PS). destruct (stat_ok add_up flog lam (hmat64 h) AO GL PF) as (c & E & F & B).
  assert (RE : real_table (hmat64 h) = hmat h). { destruct MF as (n & HN & M). apply (real_hmat _ _ _ HT). rewrite combine_length. destruct (M _ Hx) as [LX _]. destruct (M _ Hy) as [LY _]. cbn [snd] in LX, LY. rewrite LX, LY, Nat.min_id. exact HN. }
  assert (EX : exists chi, get_chi2 true (hmat h) lam = Ok chi).
  { destruct PF as (CT & HR & _). destruct (C14_chi2_defined_nonneg true lam (real_table (hmat64 h)) (T_nonneg _ CT) HR) as (v & V & _). rewrite RE in V. exists v. exact V. }
  destruct EX as (chi & EX). exists c, chi, (ndof64 (hmat64 h)). split; [exact EX|]. split; [exact F|]. unfold exact_stat, stat_tol in B. unfold exact_stat in B. rewrite RE, EX in B. split; [destruct lam; exact B|].
  assert (NB : (Z.of_nat (length (h_rows h) * length (h_cols h)) <= 1048576)%Z).
  { destruct PF as (_ & _ & _ & K). rewrite RE in K. cbn [hmat nr nc] in K. apply le_IZR. rewrite <- INR_IZR_INZ. exact K. }
  destruct PS as [P1 P2]. cbn [hmat nr nc] in P1, P2. assert (NE : (Z.of_nat (length (h_rows h) * length (h_cols h)) - Z.of_nat (length (h_rows h) + length (h_cols h)) + 2 - 1 = Z.of_nat ((length (h_rows h) - 1) * (length (h_cols h) - 1)))%Z).
  { rewrite !Nat2Z.inj_mul, Nat2Z.inj_add, !Nat2Z.inj_sub by lia. ring. }
  assert (NL : (Z.of_nat ((length (h_rows h) - 1) * (length (h_cols h) - 1)) <= 1048576)%Z). { eapply Z.le_trans; [|exact NB]. apply Nat2Z.inj_le. apply Nat.mul_le_mono; lia. }
  unfold ndof64. cbn [hmat64 fr fc]. rewrite NE. destruct (ofZ_spec (Z.of_nat ((length (h_rows h) - 1) * (length (h_cols h) - 1)))) as [V G]; [rewrite Z.abs_eq by apply Nat2Z.is_nonneg; eapply Z.le_trans; [exact NL|discriminate]|].
  split; [exact G|]. split; [rewrite V, INR_IZR_INZ; reflexivity|]. cbn [signif_tables64]. rewrite E. cbn [rbind]. unfold significance64, ndof64. cbn [hmat64 fr fc]. rewrite NE. cbv zeta. destruct (feqb _ fzero); [|reflexivity]. destruct (chernoff64 _ _ _ _); reflexivity.
Qed.
Print Assumptions C112_asymptotic.

(** The order of the records does not change a single bit. *)
Theorem C112_record_order : forall percentile add_up add_mean flog fppf fsf fnsf ffit comp npq df interval_cols s lam sims bins d u o n l, order_free npq -> rectangular n df -> Permutation l (seq 0 n) ->
  signif_matrix_64 percentile add_up add_mean flog fppf fsf fnsf ffit comp npq (reorder l df) interval_cols s lam sims bins d u o = signif_matrix_64 percentile add_up add_mean flog fppf fsf fnsf ffit comp npq df interval_cols s lam sims bins d u o.
Proof.
  intros percentile add_up add_mean flog fppf fsf fnsf ffit comp npq df ic s lam sims bins d u o n l OF R P. unfold signif_matrix_64. rewrite (guess_reorder l). set (ic0 := match ic with Some x => x | None => guess_interval_cols df end).
  rewrite (dq_reorder n l P) by exact R. destruct (dq_check_nunique_values df ic0 d) as [cdf ic'] eqn:E. cbn [fst snd].
  assert (R' : rectangular n cdf) by (pose proof (rect_dq n df ic0 d R) as X; rewrite E in X; exact X).
  rewrite (bin_data_reorder npq OF n l P) by exact R'. destruct (bin_data npq cdf ic' bins false) as [[b dict]|] eqn:E2; [|reflexivity]. cbn [rmap rbind fst snd].
  assert (RB : rectangular n b) by (eapply bin_data_rect; eassumption). unfold signif_rebinned_64.
  assert (KE : keys (clean d u o (reorder l b)) = keys (clean d u o b)) by (rewrite !keys_clean; unfold reorder, keys; rewrite map_map; reflexivity). rewrite KE.
  set (calc := calc_signif_64 _ _ _ _ _ _ _ _).
  assert (ME : mapM (fun pq => calc s lam sims (fst pq) (snd pq)) (combos (clean d u o (reorder l b))) = mapM (fun pq => calc s lam sims (fst pq) (snd pq)) (combos (clean d u o b))).
  { unfold clean, reorder. rewrite map_map, !combos_map, !mapM_map_in. apply mapM_ext. intros [[c0 x] [c1 y]] I. destruct (combos_In _ _ _ _ I) as [Hp Hq]. cbn [fst snd c_cells c_num]. unfold calc, calc_signif_64. cbn [c_cells].
    assert (C : crosstab (combine (map (clean1 d u o) (map (fun i => nth i (c_cells x) CNaN) l)) (map (clean1 d u o) (map (fun i => nth i (c_cells y) CNaN) l))) = crosstab (combine (map (clean1 d u o) (c_cells x)) (map (clean1 d u o) (c_cells y)))).
    { apply crosstab_perm. pose proof (RB _ Hp) as LX. pose proof (RB _ Hq) as LY. cbn [snd] in LX, LY.
      change (map (fun i => nth i (c_cells x) CNaN) l) with (pick CNaN l (c_cells x)). change (map (fun i => nth i (c_cells y) CNaN) l) with (pick CNaN l (c_cells y)).
      rewrite <- !(pick_map_in _ _ (clean1 d u o) CNaN CNaN) by (intros i Hi; apply (in_l n l P) in Hi; rewrite LX || rewrite LY; exact Hi).
      rewrite pick_combine by (rewrite !map_length, LX, LY; reflexivity). apply pick_perm. rewrite combine_length, !map_length, LX, LY, Nat.min_id. exact P. }
    rewrite C. reflexivity. }
  rewrite ME. reflexivity.
Qed.
Print Assumptions C112_record_order.

(** Swapping two columns transposes the table: the statistics behind the two entries are computed from the same exact value with the same error bound ... *)
Theorem C112_column_order : forall add_up add_up' flog lam f d u o c0 x c1 y h h', any_order add_up -> any_order add_up' -> good_log flog -> moderate_frame f -> In (c0, x) f -> In (c1, y) f ->
  is_table_of (counted_as d u o) (combine (c_cells x) (c_cells y)) h -> is_table_of (counted_as d u o) (combine (c_cells y) (c_cells x)) h' -> proper_shape (hmat h) ->
  proper_shape (hmat h') /\ ndof64 (hmat64 h') = ndof64 (hmat64 h) /\ exists c c', stat64 add_up flog lam (hmat64 h) = Ok c /\ stat64 add_up' flog lam (hmat64 h') = Ok c' /\ (Rabs (f2R c - f2R c') <= 2 * stat_tol lam (hmat64 h))%R.
Proof.
  intros add_up add_up' flog lam f d u o c0 x c1 y h h' AO AO' GL MF Hx Hy HT HT' PS.
  destruct (pair_fit f d u o (c0, x) (c1, y) MF Hx Hy) as [HT2 PF]. destruct (pair_fit f d u o (c1, y) (c0, x) MF Hy Hx) as [HT2' PF']. cbn [snd] in *.
  assert (TR : is_transpose h h'). { rewrite (is_table_unique _ _ _ _ HT HT2), (is_table_unique _ _ _ _ HT' HT2'), (combine_swap _ _ (map (clean1 d u o) (c_cells x))). apply crosstab_swap. }
  rewrite <- (is_table_unique _ _ _ _ HT HT2) in PF. rewrite <- (is_table_unique _ _ _ _ HT' HT2') in PF'. assert (TR0 := TR). destruct TR as (A & B & C).
  assert (PS' : proper_shape (hmat h')) by (destruct PS as [P1 P2]; split; cbn [hmat nr nc] in *; congruence). split; [exact PS'|]. split; [unfold ndof64; cbn [hmat64 fr fc]; rewrite A, B, (Nat.mul_comm (length (h_cols h))), (Nat.add_comm (length (h_cols h))); reflexivity|].
  destruct (stat_ok add_up flog lam (hmat64 h) AO GL (PF PS)) as (c & E & _ & Q). destruct (stat_ok add_up' flog lam (hmat64 h') AO' GL (PF' PS')) as (c' & E' & _ & Q'). exists c, c'. split; [exact E|]. split; [exact E'|].
  assert (RE : real_table (hmat64 h) = hmat h /\ real_table (hmat64 h') = hmat h').
  { destruct MF as (n & HN & M). destruct (M _ Hx) as [LX _]. destruct (M _ Hy) as [LY _]. cbn [snd] in LX, LY. split; [apply (real_hmat _ _ _ HT)|apply (real_hmat _ _ _ HT')]; rewrite combine_length, LX, LY, Nat.min_id; exact HN. }
  destruct RE as [RE RE']. pose proof (hmat_transp _ _ TR0) as HM. assert (XS : exact_stat lam (hmat64 h') = exact_stat lam (hmat64 h)) by (unfold exact_stat; rewrite RE, RE', (get_chi2_eq _ _ _ _ HM), get_chi2_transp; reflexivity).
  assert (MS : matsum (hmat h') = matsum (hmat h)) by (rewrite (matsum_eq _ _ HM), matsum_transp; reflexivity).
  assert (ST : stat_tol lam (hmat64 h') = stat_tol lam (hmat64 h)). { unfold stat_tol, chi2_tol, g_tol. rewrite XS, RE, RE', MS. cbn [hmat nr nc]. rewrite A, B, (Nat.mul_comm (length (h_cols h))). reflexivity. }
  rewrite XS, ST in Q'. apply Rabs_le_inv in Q. apply Rabs_le_inv in Q'. apply Rabs_le. lra.
Qed.
Print Assumptions C112_column_order.
(** ... but the last bits of the entry can differ (here with a "survival function" c / 8 for small c, so that no rounding hides the difference) *)
Definition sf112 (c k : f64) : f64 := if fle fzero c && fle c (ofZ 8) then fdiv c (ofZ 8) else fone.
Theorem C112_column_order_bits : any_order in_turn /\ moderate_frame f99 /\ NoDup (keys f99) /\ forall percentile add_mean flog fnsf ffit,
  match signif_rebinned_64 percentile in_turn add_mean flog (fun p => p) sf112 fnsf ffit true f99 Asymptotic Pearson (fun _ _ => []) true true true,
        signif_rebinned_64 percentile in_turn add_mean flog (fun p => p) sf112 fnsf ffit true (rev f99) Asymptotic Pearson (fun _ _ => []) true true true with
  | Ok t, Ok t' => negb (fisnan (fval t "a" "b")) && negb (feqb (fval t "a" "b") (fval t' "a" "b")) && negb (fisnan (fval t' "a" "b"))
  | _, _ => false
  end%string = true.
Proof.
  split; [exact in_turn_ok|]. split; [apply C99_column_order_bits|]. split; [repeat constructor; simpl; intuition congruence|]. intros percentile add_mean flog fnsf ffit. vm_compute. reflexivity.
Qed.
Print Assumptions C112_column_order_bits.

(** Two records with two different values: the statistic of the column with itself is 0 (Yates' correction), its p-value 1, and Z = -infinity - or NaN, depending on
    how pandas adds up. The diagonal is thus neither large nor even a number. *)
Definition f112 : frame := [("x", mkCol false [CStr "p"; CStr "q"])]%string.
Theorem C112_two_records : moderate_frame f112 /\ NoDup (keys f112) /\
  forall percentile add_mean flog fppf fsf fnsf ffit comp, fsf fzero (ofZ 1) = fone -> fppf fone = fpinf ->
  exists t, signif_rebinned_64 percentile in_turn add_mean flog fppf fsf fnsf ffit comp f112 Asymptotic Pearson (fun _ _ => []) true true true = Ok t /\ fval t "x"%string "x"%string = if comp then fnan else fminf.
Proof.
  split. { exists 2%nat. split; [simpl; lra|]. intros p [<- |[]]. split; [reflexivity|]. exists [CStr "p"; CStr "q"]%string. split; [simpl; lia|]. intros c Hc. exact Hc. }
  split; [repeat constructor; simpl; tauto|]. intros percentile add_mean flog fppf fsf fnsf ffit comp HS HP. unfold signif_rebinned_64.
  set (f' := clean true true true f112). assert (EC : combos f' = [(("x", mkCol false [CStr "p"; CStr "q"]), ("x", mkCol false [CStr "p"; CStr "q"]))]%string) by reflexivity. rewrite EC. cbn [mapM fst snd].
  set (h := crosstab (combine [CStr "p"; CStr "q"]%string [CStr "p"; CStr "q"]%string)).
  assert (S0 : get_chi2_64 in_turn (hmat64 h) = Ok fzero).
  { destruct (get_chi2_64 in_turn (hmat64 h)) as [v|e] eqn:E.
    - f_equal. assert (X : match get_chi2_64 in_turn (hmat64 h) with Ok v => match B2SF v with SpecFloat.S754_zero false => true | _ => false end | Raise _ => false end = true) by (vm_compute; reflexivity). rewrite E in X. destruct v as [[|]| | |]; try discriminate X. reflexivity.
    - exfalso. assert (X : match get_chi2_64 in_turn (hmat64 h) with Ok _ => true | Raise _ => false end = true) by (vm_compute; reflexivity). rewrite E in X. discriminate X. }
  assert (CS : calc_signif_64 percentile in_turn add_mean flog fppf fsf fnsf ffit Asymptotic Pearson (fun _ _ => []) ("x"%string, mkCol false [CStr "p"; CStr "q"]%string) ("x"%string, mkCol false [CStr "p"; CStr "q"]%string) = Ok ("x"%string, "x"%string, fminf)).
  { unfold calc_signif_64. cbn [c_cells]. fold h. assert (B : is01 (length (h_rows h)) || is01 (length (h_cols h)) = false) by reflexivity. rewrite B. cbn [signif_tables64 stat64]. rewrite S0. cbn [rbind]. unfold significance64. assert (K : ndof64 (hmat64 h) = ofZ 1) by reflexivity. rewrite K, HS. cbv zeta.
    assert (Z1 : feqb fone fzero = false) by (vm_compute; reflexivity). rewrite Z1, HP. reflexivity. }
  rewrite CS. cbn [rbind]. eexists. split; [reflexivity|]. assert (KF : keys f' = ["x"%string]) by reflexivity. rewrite KF.
  assert (GR : fgroup (flong [("x"%string, "x"%string, fminf)]) "x"%string "x"%string = [fminf; fminf]) by reflexivity. unfold fval. cbn [ft_index ft_columns ft_cells map]. cbn [pos String.eqb Ascii.eqb Bool.eqb nth]. rewrite GR. apply mean_two_inf; reflexivity.
Qed.
Print Assumptions C112_two_records.
(** the hypotheses are met: five records, two columns, two simulated tables per pair, all three methods and both statistics *)
Example C112_hypotheses_met : any_order ltr /\ good_log (fun x => float_of (ln (f2R x))) /\ moderate_frame f99 /\ NoDup (keys f99) /\ (forall c0 c1 : string, forall m, In m ((fun _ _ => [tie_a; tie_b]) c0 c1) -> fit_for_mc m) /\
  pair_of f99 "a"%string (snd (nth 0 f99 (""%string, mkCol false []))) "b"%string (snd (nth 1 f99 (""%string, mkCol false []))) /\ rectangular 5 f99 /\ Permutation [4; 3; 2; 1; 0]%nat (seq 0 5).
Proof.
  split; [exact ltr_ok|]. split; [exact C102_log_exists|]. split; [apply C99_column_order_bits|]. split; [apply C99_column_order_bits|]. split; [intros _ _ m [<- |[<- |[]]]; [exact tie_a_fit|exact tie_b_fit]|].
  split; [exists [], [], []; reflexivity|]. split; [intros p [<- |[<- |[]]]; reflexivity|]. apply (Permutation_rev (seq 0 5)) || (apply Permutation_sym; apply (Permutation_rev (seq 0 5))).
Qed.
