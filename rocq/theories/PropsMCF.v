(** C107: the Monte-Carlo p-value from the tables, in binary64: ties are decided by rounding errors. *)
From Coq Require Import ZArith List Bool Reals Lia Lra Permutation.
Import ListNotations.
From Flocq Require Import Core BinarySingleNaN.
From Verif Require Import PhikMatProofs PropsStats F64 Base RSum Num StatsModel SpecStats StatsProofs LinspaceProofs BrentFModel BrentFProofs Chi2FModel SpecChi2F Chi2FProofs Chi2FProofs2 Chi2FProofs3 PropsFloatPhik PropsChi2F GStatModel SpecGStat GStatProofs GStatProofs2 PropsGStat SpecSig SigModel SigProofs SpecSigF SigFModel PropsSigF MCFModel SpecMCF SimFModel PropsSimF.
Open Scope R_scope.

Definition known_percentile (percentile : list f64 -> f64 -> f64) : Prop := percentile = percentile_old \/ percentile = percentile_new.

Lemma stat_ok : forall add_up flog lam m, any_order add_up -> good_log flog -> fit_for_mc m ->
  exists c, stat64 add_up flog lam m = Ok c /\ ffin c = true /\ Rabs (f2R c - exact_stat lam m) <= stat_tol lam m.
Proof.
  intros add_up flog lam m AO GL (CT & HR & HM). destruct lam.
  - destruct (C88_chi2_rounding add_up m AO CT HR HM) as (c & chi & H1 & H2 & H3 & _ & _ & H6). exists c. cbn [stat64]. unfold stat_tol, exact_stat. rewrite H2. auto.
  - destruct (C102_g_rounding add_up flog m AO GL CT HR HM) as (c & g & H1 & H2 & H3 & _ & H6). exists c. cbn [stat64]. unfold stat_tol, exact_stat. rewrite H2. auto.
Qed.
Lemma stats_ok : forall add_up flog lam ms, any_order add_up -> good_log flog -> (forall m, In m ms -> fit_for_mc m) ->
  exists cs, sim_chi2s64 add_up flog lam ms = Ok cs /\ Forall2 (fun m c => ffin c = true /\ Rabs (f2R c - exact_stat lam m) <= stat_tol lam m) ms cs.
Proof.
  intros add_up flog lam ms AO GL. unfold sim_chi2s64, simulate_and_fit64. induction ms as [|m ms IH]; intros H.
  - exists []. split; [reflexivity|constructor].
  - destruct (stat_ok add_up flog lam m AO GL (H m (or_introl eq_refl))) as (c & E & F). destruct IH as (cs & E' & F'); [intros; apply H; right; assumption|].
    exists (c :: cs). split; [cbn [mapM]; rewrite E; cbn [rbind]; rewrite E'; reflexivity|constructor; assumption].
Qed.

Lemma count_le : forall (A B : Type) (P : A -> B -> Prop) (f : A -> bool) (g : B -> bool) l l', Forall2 P l l' -> (forall a b, P a b -> f a = true -> g b = true) -> (length (filter f l) <= length (filter g l'))%nat.
Proof.
  intros A B P f g l l' H I. induction H as [|a b l l' H _ IH]; [apply Nat.le_refl|]. cbn [filter]. specialize (I a b H). destruct (f a); [rewrite I by reflexivity; cbn [length]; lia|]. destruct (g b); cbn [length]; lia.
Qed.
Lemma f2_len : forall (A B : Type) (P : A -> B -> Prop) l l', Forall2 P l l' -> length l = length l'.
Proof. intros A B P l l' H. induction H; cbn [length]; congruence. Qed.
Lemma f2_right : forall (A B : Type) (P : A -> B -> Prop) (Q : B -> Prop) l l', Forall2 P l l' -> (forall a b, P a b -> Q b) -> forall b, In b l' -> Q b.
Proof. intros A B P Q l l' H I. induction H as [|a b l l' H _ IH]; intros x; [intros []|]. intros [<- | Hx]; [apply (I a b H)|auto]. Qed.
Lemma split_count : forall c l, (above c l + equal_to c l + below c l = length l)%nat.
Proof.
  intros c l. unfold above, equal_to, below. induction l as [|x l IH]; [reflexivity|]. cbn [filter]. destruct (Rlt_dec c x), (Req_EM_T c x), (Rlt_dec x c); cbn [length]; try lra; lia.
Qed.
(** the exact fraction lies between the strict and the weak count *)
Lemma frac_between : forall c l, (1 <= length l)%nat -> INR (above c l) / INR (length l) <= fraction_above c l <= (INR (length l) - INR (below c l)) / INR (length l).
Proof.
  intros c l HL. pose proof (split_count c l) as E. apply (f_equal INR) in E. rewrite !plus_INR in E. apply le_INR in HL. change (INR 1) with 1 in HL.
  assert (IP : 0 <= / INR (length l)) by (left; apply Rinv_0_lt_compat; lra). unfold fraction_above. destruct (Nat.eqb_spec (equal_to c l) 0) as [Z|Z].
  - rewrite Z in E. cbn [INR] in E. split; [lra|]. apply Rmult_le_compat_r; [exact IP|lra].
  - assert (1 <= INR (equal_to c l)) by (apply (le_INR 1); lia). split; (apply Rmult_le_compat_r; [exact IP|lra]).
Qed.
Lemma mc_close : forall percentile l c, known_percentile percentile -> sample_ok l c ->
  ffin (mc_p64 percentile c l) = true /\ f2R (mc_p64 percentile c l) <= 1 /\ Rabs (f2R (mc_p64 percentile c l) - fraction_above (f2R c) (map f2R l)) <= 5 * u53.
Proof.
  intros percentile l c [-> | ->] H.
  - destruct (C91_mc_p_old l c H) as (A & B & C & _). split; [exact A|]. split; [apply B|]. eapply Rle_trans; [exact C|]. change (b2 (-51)) with (/ 2251799813685248). unfold u53. lra.
  - destruct (C91_mc_p_new l c H) as (A & B & C & _). split; [exact A|]. split; [apply B|]. eapply Rle_trans; [exact C|]. change (b2 (-53)) with (/ 9007199254740992). unfold u53. lra.
Qed.

Section Main.
  Variable percentile : list f64 -> f64 -> f64.
  Variable add_up : site -> list f64 -> f64.
  Variable flog : f64 -> f64.
  Hypothesis KP : known_percentile percentile.
  Hypothesis AO : any_order add_up.
  Hypothesis GL : good_log flog.

  Lemma mc_bracket : forall lam m ms, fit_for_mc m -> (forall m', In m' ms -> fit_for_mc m') -> (1 <= Z.of_nat (length ms) <= 2 ^ 40)%Z ->
    exists p, mc_from_tables64 percentile add_up flog lam m ms = Ok p /\ ffin p = true /\ f2R p <= 1 /\
      INR (n_clearly_above lam m ms) / INR (length ms) - 5 * u53 <= f2R p <= (INR (length ms) - INR (n_clearly_below lam m ms)) / INR (length ms) + 5 * u53.
  Proof.
    intros lam m ms HM HS HL. destruct (stat_ok add_up flog lam m AO GL HM) as (c & E & FC & EC). destruct (stats_ok add_up flog lam ms AO GL HS) as (cs & ES & F).
    pose proof (f2_len _ _ _ _ _ F) as LE. assert (SO : sample_ok cs c). { split; [|split; [exact FC|rewrite <- LE; exact HL]]. apply (f2_right _ _ _ (fun x => ffin x = true) _ _ F). intros a b [X _]. exact X. }
    destruct (mc_close percentile cs c KP SO) as (PF & P1 & PC). exists (mc_p64 percentile c cs). split; [unfold mc_from_tables64; rewrite E, ES; reflexivity|]. split; [exact PF|]. split; [exact P1|].
    assert (LN : (1 <= length (map f2R cs))%nat) by (rewrite map_length, <- LE; lia). pose proof (frac_between (f2R c) (map f2R cs) LN) as FB. rewrite map_length, <- LE in FB.
    assert (IP : 0 <= / INR (length ms)) by (left; apply Rinv_0_lt_compat; apply (lt_INR 0); lia).
    assert (F' : Forall2 (fun m' x => Rabs (x - exact_stat lam m') <= stat_tol lam m') ms (map f2R cs)). { clear - F. induction F as [|a b l l' [_ H] _ IH]; cbn [map]; constructor; assumption. }
    apply Rabs_le_inv in EC.
    assert (NA : (n_clearly_above lam m ms <= above (f2R c) (map f2R cs))%nat).
    { unfold n_clearly_above, above. apply (count_le _ _ _ _ _ _ _ F'). intros a b H. apply Rabs_le_inv in H. destruct (Rlt_dec _ _); [|discriminate]. intros _. destruct (Rlt_dec _ _); [reflexivity|lra]. }
    assert (NB : (n_clearly_below lam m ms <= below (f2R c) (map f2R cs))%nat).
    { unfold n_clearly_below, below. apply (count_le _ _ _ _ _ _ _ F'). intros a b H. apply Rabs_le_inv in H. destruct (Rlt_dec _ _); [|discriminate]. intros _. destruct (Rlt_dec _ _); [reflexivity|lra]. }
    apply le_INR in NA. apply le_INR in NB. apply Rabs_le_inv in PC. unfold Rdiv in *.
    pose proof (Rmult_le_compat_r _ _ _ IP NA). assert ((INR (length ms) - INR (below (f2R c) (map f2R cs))) * / INR (length ms) <= (INR (length ms) - INR (n_clearly_below lam m ms)) * / INR (length ms)) by (apply Rmult_le_compat_r; [exact IP|lra]). lra.
  Qed.
End Main.

(** For every observed table and every list of 1 to 2^40 simulated tables of counts, either statistic, either scipy formula, every order of
    the additions: the p-value exists and lies, up to 5 * 2^-53, between the fraction of the simulated tables whose exact statistic is
    clearly above the observed one and the fraction of those not clearly below it. *)
Theorem C107_p_value : forall percentile add_up flog lam m ms, known_percentile percentile -> any_order add_up -> good_log flog ->
  fit_for_mc m -> (forall m', In m' ms -> fit_for_mc m') -> (1 <= Z.of_nat (length ms) <= 2 ^ 40)%Z ->
  exists p, mc_from_tables64 percentile add_up flog lam m ms = Ok p /\ ffin p = true /\ f2R p <= 1 /\
    INR (n_clearly_above lam m ms) / INR (length ms) - 5 * u53 <= f2R p <= (INR (length ms) - INR (n_clearly_below lam m ms)) / INR (length ms) + 5 * u53.
Proof. intros percentile add_up flog lam m ms KP AO GL. exact (mc_bracket percentile add_up flog KP AO GL lam m ms). Qed.
Print Assumptions C107_p_value.


(** If no simulated table ties with the observed one within the errors, the p-value is the fraction of the simulated tables whose exact
    statistic is above the observed one. *)
Theorem C107_without_ties : forall percentile add_up flog lam m ms, known_percentile percentile -> any_order add_up -> good_log flog ->
  fit_for_mc m -> (forall m', In m' ms -> fit_for_mc m') -> (1 <= Z.of_nat (length ms) <= 2 ^ 40)%Z ->
  (forall m', In m' ms -> clearly_above lam m m' \/ clearly_below lam m m') ->
  exists p, mc_from_tables64 percentile add_up flog lam m ms = Ok p /\
    Rabs (f2R p - INR (above (exact_stat lam m) (map (exact_stat lam) ms)) / INR (length ms)) <= 5 * u53.
Proof.
  intros percentile add_up flog lam m ms KP AO GL HM HS HL CL. destruct (mc_bracket percentile add_up flog KP AO GL lam m ms HM HS HL) as (p & E & _ & _ & B). exists p. split; [exact E|].
  assert (T0 : forall x, fit_for_mc x -> 0 <= stat_tol lam x). { intros x Hx. destruct (stat_ok add_up flog lam x AO GL Hx) as (c & _ & _ & EC). pose proof (Rabs_pos (f2R c - exact_stat lam x)). lra. }
  pose proof (T0 m HM) as TM.
  assert (NA : n_clearly_above lam m ms = above (exact_stat lam m) (map (exact_stat lam) ms) /\ (n_clearly_above lam m ms + n_clearly_below lam m ms = length ms)%nat).
  { unfold n_clearly_above, n_clearly_below, above. clear - HS CL T0 TM. induction ms as [|x ms IH]; [split; reflexivity|]. destruct IH as [I1 I2]; [intros; apply HS; right; assumption|intros; apply CL; right; assumption|].
    pose proof (T0 x (HS x (or_introl eq_refl))) as TX. destruct (CL x (or_introl eq_refl)) as [H|H]; unfold clearly_above, clearly_below in H; cbn [filter map length];
      repeat match goal with |- context [Rlt_dec ?a ?b] => destruct (Rlt_dec a b); try lra end; cbn [length]; split; lia. }
  destruct NA as [NA NB]. rewrite <- NA. apply (f_equal INR) in NB. rewrite plus_INR in NB. replace (INR (length ms) - INR (n_clearly_below lam m ms)) with (INR (n_clearly_above lam m ms)) in B by lra. apply Rabs_le. lra.
Qed.
Print Assumptions C107_without_ties.

(** the order of the simulations (the order in which parallel workers deliver) does not change a single bit of the p-value *)
Lemma filter_perm : forall (A : Type) (f : A -> bool) l l', Permutation l l' -> length (filter f l) = length (filter f l').
Proof. intros A f l l' H. induction H as [|x l l' _ IH|x y l|l l' l'' _ IH _ IH']; cbn [filter]; [reflexivity| | |congruence]; [destruct (f x)|destruct (f x), (f y)]; cbn [length]; lia. Qed.
Lemma mapM_perm : forall (A B : Type) (f : A -> res B) l l' r, Permutation l l' -> mapM f l = Ok r -> exists r', mapM f l' = Ok r' /\ Permutation r r'.
Proof.
  intros A B f l l' r H. revert r. induction H as [|x l l' _ IH|x y l|l l' l'' _ IH _ IH']; intros r E.
  - exists r. split; [exact E|reflexivity].
  - cbn [mapM] in *. destruct (f x) as [b|]; [cbn [rbind] in *|discriminate]. destruct (mapM f l) as [bs|]; [|discriminate]. cbn [rbind] in *. destruct (IH bs eq_refl) as (r' & -> & P). cbn [rbind]. exists (b :: r'). split; [reflexivity|]. injection E as <-. constructor. exact P.
  - cbn [mapM] in *. destruct (f y) as [b|]; [cbn [rbind] in *|discriminate]. destruct (f x) as [a|]; [cbn [rbind] in *|discriminate]. destruct (mapM f l) as [bs|]; [|discriminate]. cbn [rbind] in *. injection E as <-. exists (a :: b :: bs). split; [reflexivity|constructor].
  - destruct (IH r E) as (r1 & E1 & P1). destruct (IH' r1 E1) as (r2 & E2 & P2). exists r2. split; [exact E2|]. transitivity r1; assumption.
Qed.
Theorem C107_order : forall percentile add_up flog lam m ms ms' p, known_percentile percentile -> Permutation ms ms' ->
  mc_from_tables64 percentile add_up flog lam m ms = Ok p -> mc_from_tables64 percentile add_up flog lam m ms' = Ok p.
Proof.
  intros percentile add_up flog lam m ms ms' p KP HP. unfold mc_from_tables64, sim_chi2s64. destruct (stat64 add_up flog lam m) as [c|]; [|discriminate].
  destruct (mapM (simulate_and_fit64 add_up flog lam) ms) as [cs|] eqn:E; [|discriminate]. intros E'. destruct (mapM_perm _ _ _ _ _ _ HP E) as (cs' & -> & P). rewrite <- E'. f_equal. unfold mc_p64.
  assert (X : rank2 cs c = rank2 cs' c) by (unfold rank2; rewrite !(filter_perm _ _ _ _ P); reflexivity). pose proof (Permutation_length P) as L. destruct KP as [-> | ->]; [unfold percentile_old|unfold percentile_new]; rewrite X, L; reflexivity.
Qed.
Print Assumptions C107_order.

(** a table without records, observed or simulated: the call raises *)
Lemma stat_raise : forall add_up flog lam m, count_table64 m -> ~ has_records (real_table m) -> stat64 add_up flog lam m = Raise ValueError.
Proof. intros add_up flog [|] m CT HR; [apply C88_no_records|apply C102_no_records]; assumption. Qed.
Theorem C107_no_records : forall percentile add_up flog lam m ms, any_order add_up -> good_log flog ->
  (forall m', In m' (m :: ms) -> fit_for_mc m' \/ count_table64 m' /\ ~ has_records (real_table m')) -> (exists m', In m' (m :: ms) /\ ~ has_records (real_table m')) ->
  mc_from_tables64 percentile add_up flog lam m ms = Raise ValueError.
Proof.
  intros percentile add_up flog lam m ms AO GL H (m' & I & HR). unfold mc_from_tables64, sim_chi2s64, simulate_and_fit64.
  assert (S : forall x, In x (m :: ms) -> (exists c, stat64 add_up flog lam x = Ok c /\ has_records (real_table x)) \/ stat64 add_up flog lam x = Raise ValueError).
  { intros x Hx. destruct (H x Hx) as [F|[CT NR]]; [left|right; apply stat_raise; assumption]. destruct (stat_ok add_up flog lam x AO GL F) as (c & E & _). exists c. split; [exact E|apply F]. }
  destruct (S m (or_introl eq_refl)) as [(c & -> & Hm) | ->]; [|reflexivity]. destruct I as [<- | I]; [contradiction|].
  change (fun simdata => stat64 add_up flog lam simdata) with (stat64 add_up flog lam).
  replace (mapM (stat64 add_up flog lam) ms) with (@Raise (list f64) ValueError); [reflexivity|]. symmetry.
  assert (S' : forall x, In x ms -> (exists c, stat64 add_up flog lam x = Ok c /\ has_records (real_table x)) \/ stat64 add_up flog lam x = Raise ValueError) by (intros; apply S; right; assumption).
  clear - S' I HR. induction ms as [|x ms IH]; [destruct I|]. cbn [mapM]. destruct (S' x (or_introl eq_refl)) as [(a & -> & Hx) | ->]; [|reflexivity]. cbn [rbind]. destruct I as [<- | I]; [contradiction|]. rewrite IH; [reflexivity|exact I|intros; apply S'; right; assumption].
Qed.
Print Assumptions C107_no_records.

(** Ties: a table and the same table with its rows swapped have the same exact statistic, 3, but computed statistics that differ in the
    last bit.  With the one observed and any number of copies of the other simulated, every simulation ties with the observation (the
    exact fraction is (n - 1) / 2n), and the p-value is 0, or 1 if they are exchanged. *)
Definition tie_a : fmat := ftab [[1; 0; 0]; [0; 1; 1]]%Z 3.
Definition tie_b : fmat := fsub tie_a [1; 0]%nat [0; 1; 2]%nat.
Definition chi_of (m : fmat) : f64 := match get_chi2_64 ltr m with Ok c => c | Raise _ => fzero end.
Lemma tie_rearr : rearrangement (real_table tie_a) [1; 0]%nat [0; 1; 2]%nat.
Proof.
  split; [repeat constructor; cbn; lia|]. split; [repeat constructor; cbn; lia|]. cbn [nr nc real_table tie_a ftab fr fc length]. split; [intros i [<-|[<-|[]]]; lia|]. split; [intros i [<-|[<-|[<-|[]]]]; lia|].
  intros i j Hi Hj _. split; [destruct i as [|[|i]]; [| |lia]; cbn; auto|destruct j as [|[|[|j]]]; [| | |lia]; cbn; auto].
Qed.
Lemma tie_equal : forall lam, exact_stat lam tie_b = exact_stat lam tie_a.
Proof. intros lam. unfold exact_stat. change (real_table tie_b) with (submat (real_table tie_a) [1; 0]%nat [0; 1; 2]%nat). rewrite (get_chi2_rearr true _ lam _ _ tie_rearr). reflexivity. Qed.
Lemma tie_a_fit : fit_for_mc tie_a.
Proof.
  destruct (ftab_ok [[1; 0; 0]; [0; 1; 1]]%Z 3) as [CT ME]; try reflexivity. fold tie_a in CT, ME. destruct ME as (E1 & E2 & E3).
  assert (MS : matsum (real_table tie_a) = 3). { rewrite (matsum_eq _ (tab [[1; 0; 0]; [0; 1; 1]]%Z 3)) by (split; [exact E1|split; [exact E2|exact E3]]). unfold matsum, rowsum, lsum, tab. cbn [nr nc el length seq fold_right nth]. lra. }
  split; [exact CT|]. split; [|split].
  - exists 0%nat, 0%nat. split; [cbn; lia|]. split; [cbn; lia|]. rewrite E3 by (cbn; lia). cbn. lra.
  - rewrite MS. lra.
  - cbn [nr nc real_table tie_a ftab fr fc length]. cbn. lra.
Qed.
Lemma tie_b_fit : fit_for_mc tie_b.
Proof.
  destruct tie_a_fit as (CT & HR & HM & HK). pose proof tie_rearr as (_ & _ & RI & RJ & _). split; [|split; [|split]].
  - intros i j Hi Hj. cbn [tie_b fsub fr fc fe] in *. apply CT; [apply RI, nth_In, Hi|apply RJ, nth_In, Hj].
  - destruct (ftab_ok [[1; 0; 0]; [0; 1; 1]]%Z 3) as [_ ME]; try reflexivity. fold tie_a in ME. destruct ME as (E1 & E2 & E3). exists 1%nat, 0%nat. split; [cbn; lia|]. split; [cbn; lia|]. cbn [real_table tie_b fsub el fe nth]. pose proof (E3 0%nat 0%nat) as X. cbn [real_table el] in X. rewrite X by (cbn; lia). cbn. lra.
  - change (real_table tie_b) with (submat (real_table tie_a) [1; 0]%nat [0; 1; 2]%nat). rewrite (sub_matsum _ _ _ tie_rearr). exact HM.
  - exact HK.
Qed.
Lemma map_repeat : forall (A B : Type) (f : A -> B) x n, map f (repeat x n) = repeat (f x) n.
Proof. intros A B f x n. induction n as [|n IH]; [reflexivity|]. cbn [repeat map]. rewrite IH. reflexivity. Qed.
Lemma mapM_repeat : forall (A B : Type) (f : A -> res B) x y n, f x = Ok y -> mapM f (repeat x n) = Ok (repeat y n).
Proof. intros A B f x y n E. induction n as [|n IH]; [reflexivity|]. cbn [repeat mapM]. rewrite E. cbn [rbind]. rewrite IH. reflexivity. Qed.
Lemma count_repeat : forall (A : Type) (f : A -> bool) x n, length (filter f (repeat x n)) = if f x then n else 0%nat.
Proof. intros A f x n. induction n as [|n IH]; [destruct (f x); reflexivity|]. cbn [repeat filter]. destruct (f x); cbn [length]; lia. Qed.
Theorem C107_ties_refuted : exact_stat Pearson tie_b = exact_stat Pearson tie_a /\
  forall n, (1 <= Z.of_nat n <= 2 ^ 40)%Z ->
    fraction_above (exact_stat Pearson tie_a) (map (exact_stat Pearson) (repeat tie_b n)) = (INR n - 1) / (2 * INR n) /\
    (exists p, mc_from_tables64 percentile_old ltr (fun x => x) Pearson tie_b (repeat tie_a n) = Ok p /\ f2R p = 0) /\
    (exists p, mc_from_tables64 percentile_old ltr (fun x => x) Pearson tie_a (repeat tie_b n) = Ok p /\ f2R p = 1).
Proof.
  split; [apply tie_equal|]. intros n Hn. assert (N1 : 1 <= INR n) by (apply (le_INR 1); lia).
  destruct (C88_chi2_rounding ltr tie_a ltr_ok) as (ca & _ & EA & _ & FA & _); try apply tie_a_fit. destruct (C88_chi2_rounding ltr tie_b ltr_ok) as (cb & _ & EB & _ & FB & _); try apply tie_b_fit.
  assert (LT : f2R ca < f2R cb). { apply (proj1 (flt_spec ca cb FA FB)). assert (X : flt (chi_of tie_a) (chi_of tie_b) = true) by (vm_compute; reflexivity). unfold chi_of in X. rewrite EA, EB in X. exact X. }
  split; [|split].
  - rewrite map_repeat, tie_equal. unfold fraction_above, equal_to, above. rewrite !count_repeat, repeat_length. destruct (Req_EM_T _ _); [|congruence]. destruct (Rlt_dec _ _); [lra|]. destruct (Nat.eqb_spec n 0); [lia|]. cbn [INR]. field. lra.
  - exists (mc_p64 percentile_old cb (repeat ca n)). split; [unfold mc_from_tables64, sim_chi2s64; cbn [stat64]; rewrite EB, (mapM_repeat _ _ _ _ ca) by exact EA; reflexivity|].
    assert (SO : sample_ok (repeat ca n) cb) by (split; [intros x Hx; apply repeat_spec in Hx; subst x; exact FA|split; [exact FB|rewrite repeat_length; exact Hn]]). destruct (C91_mc_p_old _ _ SO) as (_ & _ & _ & Z & _). apply (proj2 Z).
    unfold fraction_above, equal_to, above. rewrite map_repeat, !count_repeat. destruct (Req_EM_T _ _); [lra|]. destruct (Rlt_dec _ _); [lra|]. cbn [Nat.eqb INR]. lra.
  - exists (mc_p64 percentile_old ca (repeat cb n)). split; [unfold mc_from_tables64, sim_chi2s64; cbn [stat64]; rewrite EA, (mapM_repeat _ _ _ _ cb) by exact EB; reflexivity|].
    assert (SO : sample_ok (repeat cb n) ca) by (split; [intros x Hx; apply repeat_spec in Hx; subst x; exact FB|split; [exact FA|rewrite repeat_length; exact Hn]]). destruct (C91_mc_p_old _ _ SO) as (_ & _ & _ & _ & O & _). apply (proj2 O).
    unfold fraction_above, equal_to, above. rewrite map_repeat, !count_repeat. destruct (Req_EM_T _ _); [lra|]. destruct (Rlt_dec _ _); [|lra]. cbn [Nat.eqb]. rewrite repeat_length. field. lra.
Qed.
Print Assumptions C107_ties_refuted.
(** The hypotheses are met: observed, 3 records with statistic 3; simulated, an even table (clearly below) and none that ties; exchanged, one
    that is clearly above. *)
Definition even : fmat := ftab [[1; 1; 1]; [1; 1; 1]]%Z 3.
Lemma even_mat : mat_eq (real_table even) (tab [[1; 1; 1]; [1; 1; 1]]%Z 3) /\ count_table64 even.
Proof. destruct (ftab_ok [[1; 1; 1]; [1; 1; 1]]%Z 3) as [CT ME]; try reflexivity. split; assumption. Qed.
Lemma even_fit : fit_for_mc even.
Proof.
  destruct even_mat as [ME CT]. assert (MS : matsum (real_table even) = 6). { rewrite (matsum_eq _ _ ME). unfold matsum, rowsum, lsum, tab. cbn [nr nc el length seq fold_right nth]. lra. }
  destruct ME as (E1 & E2 & E3). split; [exact CT|]. split; [|split; [rewrite MS; lra|cbn; lra]]. exists 0%nat, 0%nat. split; [cbn; lia|]. split; [cbn; lia|]. rewrite E3 by (cbn; lia). cbn. lra.
Qed.
Lemma even_zero : exact_stat Pearson even = 0.
Proof.
  destruct even_mat as [ME _]. unfold exact_stat. rewrite (get_chi2_eq true _ _ Pearson ME). rewrite C17_independent_zero; [reflexivity| | |].
  - intros i j Hi Hj. cbn [nr nc el tab length] in *. destruct i as [|[|i]]; [| |lia]; (destruct j as [|[|[|j]]]; [| | |lia]); cbn [nth]; lra.
  - exists 0%nat, 0%nat. simpl. repeat split; try lia. lra.
  - intros i j Hi Hj. assert (M : matsum (tab [[1; 1; 1]; [1; 1; 1]]%Z 3) = 6) by (unfold matsum, rowsum, lsum, tab; cbn [nr nc el length seq fold_right nth]; lra). rewrite M. unfold rowsum, colsum, lsum, tab in *. cbn [nr nc el length seq fold_right] in *. cbn [nr nc el length seq fold_right]. destruct i as [|[|i]]; [| |lia]; (destruct j as [|[|[|j]]]; [| | |lia]); cbn [nth el]; lra.
Qed.
Lemma tie_three : exact_stat Pearson tie_a = 3.
Proof.
  destruct (ftab_ok [[1; 0; 0]; [0; 1; 1]]%Z 3) as [_ ME]; try reflexivity. fold tie_a in ME. unfold exact_stat. rewrite (get_chi2_eq true _ _ Pearson ME). set (t := tab [[1; 0; 0]; [0; 1; 1]]%Z 3) in *.
  assert (HN : nonneg_table t) by (intros i j Hi Hj; unfold t in *; cbn [nr nc el tab length] in *; destruct i as [|[|i]]; [| |lia]; (destruct j as [|[|[|j]]]; [| | |lia]); cbn [nth]; lra).
  assert (HR : has_records t) by (exists 0%nat, 0%nat; unfold t; simpl; repeat split; try lia; lra).
  assert (RN : nz_rows t = [0; 1]%nat) by (unfold nz_rows, t, reqb, tab; cbn; repeat (destruct (Req_EM_T _ _); try lra; cbn); reflexivity).
  assert (CN : nz_cols t = [0; 1; 2]%nat) by (unfold nz_cols, t, reqb, tab; cbn; repeat (destruct (Req_EM_T _ _); try lra; cbn); reflexivity).
  assert (MS : matsum t = 3) by (unfold t, tab, matsum, rowsum, lsum; simpl; lra).
  rewrite (C14_chi2_value true t Pearson (nz_rows t) (nz_cols t) HN HR (enum_rows_nz _) (enum_cols_nz _)); [|right; rewrite CN; cbn; lia].
  rewrite RN, CN, MS. cbn [length Nat.leb orb]. unfold t, tab, rowsum, colsum, lsum. simpl. lra.
Qed.
Lemma tie_tol : stat_tol Pearson tie_a <= 1 / 1024 /\ stat_tol Pearson even <= 1 / 1024.
Proof.
  unfold stat_tol, chi2_tol. rewrite tie_three, even_zero. destruct even_mat as [ME _]. destruct (ftab_ok [[1; 0; 0]; [0; 1; 1]]%Z 3) as [_ ME']; try reflexivity. fold tie_a in ME'.
  rewrite (matsum_eq _ _ ME), (matsum_eq _ _ ME'). unfold matsum, rowsum, lsum, tab. cbn [nr nc el length seq fold_right nth real_table tie_a even ftab fr fc Nat.mul Nat.add INR]. unfold u53. lra.
Qed.
Example C107_hyps :
  (exists p, mc_from_tables64 percentile_old ltr (fun x => float_of (ln (f2R x))) Pearson tie_a [even; even] = Ok p /\ Rabs (f2R p - 0) <= 5 * u53) /\
  (exists p, mc_from_tables64 percentile_new ltr (fun x => float_of (ln (f2R x))) Pearson even [tie_a; tie_a] = Ok p /\ Rabs (f2R p - 1) <= 5 * u53) /\
  (exists p, mc_from_tables64 percentile_new ltr (fun x => float_of (ln (f2R x))) LogLikelihood tie_a [tie_b; even] = Ok p /\ ffin p = true).
Proof.
  destruct tie_tol as [T1 T2]. split; [|split].
  - destruct (C107_without_ties percentile_old ltr (fun x => float_of (ln (f2R x))) Pearson tie_a [even; even]) as (p & E & B); [left; reflexivity|exact ltr_ok|exact C102_log_exists|exact tie_a_fit|intros m [<- | [<- | []]]; exact even_fit|cbn; lia| |].
    + intros m [<- | [<- | []]]; right; unfold clearly_below; rewrite tie_three, even_zero; lra.
    + exists p. split; [exact E|]. unfold above in B. rewrite tie_three in B. cbn [map filter length] in B. rewrite even_zero in B. destruct (Rlt_dec 3 0); [lra|]. cbn [length INR] in B. unfold Rdiv in B. rewrite Rmult_0_l in B. exact B.
  - destruct (C107_without_ties percentile_new ltr (fun x => float_of (ln (f2R x))) Pearson even [tie_a; tie_a]) as (p & E & B); [right; reflexivity|exact ltr_ok|exact C102_log_exists|exact even_fit|intros m [<- | [<- | []]]; exact tie_a_fit|cbn; lia| |].
    + intros m [<- | [<- | []]]; left; unfold clearly_above; rewrite tie_three, even_zero; lra.
    + exists p. split; [exact E|]. unfold above in B. rewrite even_zero in B. cbn [map filter length] in B. rewrite tie_three in B. destruct (Rlt_dec 0 3); [|lra]. cbn [length INR] in B. replace ((1 + 1) / (1 + 1)) with 1 in B by field. exact B.
  - destruct (C107_p_value percentile_new ltr (fun x => float_of (ln (f2R x))) LogLikelihood tie_a [tie_b; even]) as (p & E & F & _); [right; reflexivity|exact ltr_ok|exact C102_log_exists|exact tie_a_fit|intros m [<- | [<- | []]]; [exact tie_b_fit|exact even_fit]|cbn; lia|]. exists p. auto.
Qed.
Definition nothing : fmat := ftab [[0; 0]; [0; 0]]%Z 2.
Example C107_no_records_hyps : mc_from_tables64 percentile_old ltr (fun x => float_of (ln (f2R x))) Pearson tie_a [even; nothing] = Raise ValueError.
Proof.
  destruct (ftab_ok [[0; 0]; [0; 0]]%Z 2 eq_refl eq_refl) as [CT ME]. fold nothing in CT, ME.
  assert (NR : ~ has_records (real_table nothing)). { destruct ME as (_ & _ & E3). intros (i & j & Hi & Hj & X). rewrite E3 in X by assumption. cbn in Hi, Hj. destruct i as [|[|i]]; [| |lia]; (destruct j as [|[|j]]; [| |lia]); cbn in X; lra. }
  apply C107_no_records; [exact ltr_ok|exact C102_log_exists| |exists nothing; split; [right; right; left; reflexivity|exact NR]].
  intros m [<- | [<- | [<- | []]]]; [left; exact tie_a_fit|left; exact even_fit|right; split; assumption].
Qed.
