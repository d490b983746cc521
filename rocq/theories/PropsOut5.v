(** C55, C57, C58, C65: what the outlier probabilities and uncertainties are. *)
From Coq Require Import String ZArith List Bool Reals Lra Lia Psatz.
From Coquelicot Require Import Coquelicot.
From Verif Require Import F64 Base Cells RSum StatsModel StatsProofs Num SpecPhik BetaModel BetaProofs PropsBeta SpecSig SigModel SigProofs OutModel SpecOut OutProofs PropsOut PropsOut2 SpecGauss CdfProofs Gauss PropsGauss.
Import ListNotations.
Open Scope R_scope.
Open Scope list_scope.

(** * C57: the p-values with an uncertain expectation are tails of a negative binomial distribution *)
(** the parameters: m^2/s^2 + 1 and s^2 / (s^2 + m) for an expectation m +- s; a non-positive expectation is replaced by s *)
Definition predictive (m s : R) : R * R := if Rlt_dec 0 m then (m ^ 2 / s ^ 2 + 1, s ^ 2 / (s ^ 2 + m)) else (2, s / (s + 1)).
Lemma linnemann_predictive : forall m s, 0 < s -> linnemann (Fin m) s = predictive m s /\ 0 < fst (predictive m s) /\ 0 < snd (predictive m s) < 1.
Proof.
  intros m s Hs. assert (F : forall a, 0 < a -> 0 < a / (a + 1) < 1) .
  { intros a Ha. split; [apply Rdiv_lt_0_compat; lra|]. apply (Rmult_lt_reg_r (a + 1)); [lra|]. unfold Rdiv. rewrite Rmult_assoc, Rinv_l by lra. lra. }
  unfold predictive, linnemann. destruct (Rlt_dec 0 m) as [H|H].
  - rewrite (proj2 (rltb_true 0 m)) by exact H. cbn [fst snd]. assert (S2 : 0 < s ^ 2) by nra. split; [|split].
    + f_equal; field; [lra|]. repeat split; nra.
    + assert (0 <= m ^ 2 / s ^ 2) by (apply Rmult_le_pos; [nra|left; apply Rinv_0_lt_compat; lra]). lra.
    + split; [apply Rdiv_lt_0_compat; lra|]. apply (Rmult_lt_reg_r (s ^ 2 + m)); [lra|]. unfold Rdiv. rewrite Rmult_assoc, Rinv_l by lra. lra.
  - rewrite (proj2 (rltb_false 0 m)) by lra. cbn [fst snd]. split; [f_equal; field; lra|]. split; [lra|apply F, Hs].
Qed.
Definition predictive_prob (m s : R) (k : nat) : R := negbin_prob (fst (predictive m s)) (snd (predictive m s)) k.

Theorem C57_predictive_tail : forall L n m s, betainc_exact (betainc L) -> 0 < s ->
  poisson_obs_p L n (Fin m) (Fin s) = Fin (1 - lsum (predictive_prob m s) (seq 0 n)).
Proof.
  intros L n m s HB Hs. destruct n as [|n]; [cbn [poisson_obs_p seq]; rewrite lsum_nil; f_equal; ring|].
  cbn [poisson_obs_p]. unfold err_positive. rewrite (proj2 (rltb_true 0 s)) by exact Hs. destruct (linnemann_predictive m s Hs) as (E & Hb & Hx). rewrite E.
  destruct (predictive m s) as [b x] eqn:P. cbn [fst snd] in Hb, Hx. destruct (HB n b Hb) as (I & HI & EI). rewrite EI by exact Hx. f_equal.
  rewrite (beta_negbin b n I Hb HI x Hx). unfold predictive_prob. rewrite P. reflexivity.
Qed.
Theorem C57_predictive_mid_p : forall L n m s, betainc_exact (betainc L) -> 0 < s ->
  poisson_obs_mid_p L n (Fin m) (Fin s) = Fin (1 - lsum (predictive_prob m s) (seq 0 n) - predictive_prob m s n / 2).
Proof.
  intros L n m s HB Hs. rewrite (mid_p_fin L n _ _ _ _ (C57_predictive_tail L n m s HB Hs) (C57_predictive_tail L (S n) m s HB Hs)). f_equal.
  rewrite seq_S, lsum_app, lsum_cons, lsum_nil. change (0 + n)%nat with n. field.
Qed.
(** its probabilities are positive *)
Lemma negbin_pos : forall b x k, 0 < b -> 0 < x < 1 -> 0 < negbin_prob b x k.
Proof. intros b x k Hb Hx. unfold negbin_prob. apply Rmult_lt_0_compat; [|apply exp_pos]. apply Rmult_lt_0_compat; [apply Rdiv_lt_0_compat; [apply rising_pos, Hb|apply fact_pos]|apply pow_lt; lra]. Qed.
(** ... which sum to 1; the mean is not the expectation m but m + s^2/m *)
Theorem C57_predictive_mean : forall m s, 0 < m -> 0 < s ->
  (forall k, 0 < predictive_prob m s k) /\ infinite_sum (predictive_prob m s) 1 /\ infinite_sum (fun k => INR k * predictive_prob m s k) (m + s ^ 2 / m).
Proof.
  intros m s Hm Hs. destruct (linnemann_predictive m s Hs) as (_ & Hb & Hx). split; [intros k; apply negbin_pos; assumption|].
  split; [apply negbin_total; assumption|].
  assert (E : m + s ^ 2 / m = fst (predictive m s) * snd (predictive m s) / (1 - snd (predictive m s))); [|rewrite E; apply negbin_mean; assumption].
  unfold predictive. destruct (Rlt_dec 0 m) as [_|N]; [|lra]. cbn [fst snd]. assert (0 < s ^ 2) by nra. field. repeat split; nra.
Qed.
(** without uncertainty: Poisson *)
Theorem C57_poisson_tail : forall L n m s, poisson_exact (poisson_sf L) -> 0 < m -> err_positive s = None ->
  poisson_obs_p L n (Fin m) s = Fin (1 - lsum (poisson_prob m) (seq 0 n)) /\
  poisson_obs_mid_p L n (Fin m) s = Fin (1 - lsum (poisson_prob m) (seq 0 n) - poisson_prob m n / 2).
Proof.
  intros L n m s HP Hm Hs. assert (T : forall n, poisson_obs_p L n (Fin m) s = Fin (1 - lsum (poisson_prob m) (seq 0 n))).
  { intros [|k]; cbn [poisson_obs_p]; [cbn [seq]; rewrite lsum_nil; f_equal; ring|]. rewrite Hs. apply HP, Hm. }
  split; [apply T|]. rewrite (mid_p_fin L n _ _ _ _ (T n) (T (S n))). f_equal. rewrite (seq_S n 0), lsum_app, lsum_cons, lsum_nil. change (0 + n)%nat with n. field.
Qed.

(** * C55: the uncertainty of the prediction is the propagated uncertainty of B, C and D *)
Theorem C55_uncertainty : forall L m CI t i j sB sC sD dB dC dD, get_independent_frequency_estimates L m CI = Ok t -> (i < nr m)%nat -> (j < nc m)%nat -> 0 < elsewhere m i j ->
  let B := same_row m i j in let C := same_col m i j in let D := elsewhere m i j in
  get_uncertainty L B CI = Ok sB -> get_uncertainty L C CI = Ok sC -> get_uncertainty L D CI = Ok sD ->
  derivable_pt_lim (fun b => b * C / D) B dB -> derivable_pt_lim (fun c => B * c / D) C dC -> derivable_pt_lim (fun d => B * C / d) D dD ->
  snd (nth j (nth i t []) (NaN, NaN)) = Fin (sqrt ((dB * sB) ^ 2 + (dC * sC) ^ 2 + (dD * sD) ^ 2)).
Proof.
  intros L m CI t i j sB sC sD dB dC dD H Hi Hj HD B C D EB EC ED HB HC HDD.
  destruct (estimates_nth L m _ t i j H Hi Hj) as (_ & _ & E). rewrite estimate_spec in E by assumption. cbv zeta in E. fold B C D in E. rewrite (proj2 (rltb_true 0 D) HD), EB, EC, ED in E. cbn [rbind] in E.
  apply Ok_inj in E. rewrite <- E. cbn [snd]. fold D in HD. clearbody B C D.
  assert (EdB : dB = C / D). { apply (uniqueness_limite _ _ _ _ HB). apply is_derive_Reals. auto_derive; [exact I|]. field. lra. }
  assert (EdC : dC = B / D). { apply (uniqueness_limite _ _ _ _ HC). apply is_derive_Reals. auto_derive; [exact I|]. field. lra. }
  assert (EdD : dD = - (B * C / D ^ 2)). { apply (uniqueness_limite _ _ _ _ HDD). apply is_derive_Reals. auto_derive; [lra|]. field. lra. }
  subst dB dC dD. do 2 f_equal. field. lra.
Qed.

(** * C65: "exact_poisson" is half the length of the central interval of the mean of a Poisson variable observed to be n, one sigma on each side *)
Theorem C65_exact_value : forall L F n, normal_cdf F -> (forall x, norm_cdf L x = F x) -> chi2_quantile_exact (chi2_ppf L) ->
  exists lb ub, get_exact_poisson_uncertainty L (INR n) = (ub - lb) / 2 /\ 0 <= lb /\ 0 < ub /\
    lsum (poisson_prob ub) (seq 0 (S n)) = 1 - F 1 /\
    (n = O -> lb = 0) /\ ((1 <= n)%nat -> 0 < lb /\ 1 - lsum (poisson_prob lb) (seq 0 n) = 1 - F 1).
Proof.
  intros L F n HF HN HC. destruct (C79_normal_facts F HF) as (Rg & _ & Sym & _). pose proof (Rg 1) as R1. pose proof (Rg (-1)) as R2. assert (S1 : F (-1) = 1 - F 1) by (rewrite <- Sym; f_equal; ring).
  unfold get_exact_poisson_uncertainty. rewrite !HN.
  assert (Eu : 2 * (INR n + 1) = 2 * INR (S n)) by (rewrite S_INR; ring). rewrite Eu. destruct (HC (F 1) n R1) as [Pu Gu]. set (u := chi2_ppf L (F 1) (2 * INR (S n))) in *.
  pose proof (Gu _ (po_tail_cdf n)) as Tu. unfold po_tail in Tu.
  destruct n as [|n'].
  - simpl (INR 0). rewrite (proj2 (reqb_true 0 0)) by reflexivity. cbn [negb]. exists 0, (u / 2). split; [reflexivity|]. split; [lra|]. split; [lra|]. split; [lra|]. split; [reflexivity|lia].
  - rewrite (proj2 (reqb_false _ _)) by (apply not_0_INR; lia). cbn [negb]. destruct (HC (F (-1)) n' R2) as [Pl Gl]. set (l := chi2_ppf L (F (-1)) (2 * INR (S n'))) in *.
    pose proof (Gl _ (po_tail_cdf n')) as Tl. unfold po_tail in Tl.
    exists (l / 2), (u / 2). split; [reflexivity|]. split; [lra|]. split; [lra|]. split; [lra|]. split; [lia|]. intros _. split; lra.
Qed.

(** * the assumptions can be met together *)
Definition nfloor (a : R) : nat := Z.to_nat (Int_part a).
Lemma nfloor_INR : forall n, nfloor (INR n) = n.
Proof. intros n. unfold nfloor. rewrite Int_part_INR. apply Nat2Z.id. Qed.
Lemma nfloor_mono : forall a b, a <= b -> (nfloor a <= nfloor b)%nat.
Proof.
  intros a b H. unfold nfloor.
  assert (Int_part a <= Int_part b)%Z; [|lia].
  destruct (base_Int_part a) as [A1 A2]. destruct (base_Int_part b) as [B1 B2]. apply Z.lt_succ_r. apply lt_IZR. rewrite succ_IZR. lra.
Qed.
Lemma nb_tail_decr : forall b x n n', 0 < b -> 0 < x < 1 -> (n <= n')%nat -> nb_tail b n' x <= nb_tail b n x.
Proof. intros b x n n' Hb Hx H. induction H as [|n' _ IH]; [lra|]. rewrite nb_tail_S. pose proof (negbin_pos b x n' Hb Hx). lra. Qed.
Lemma nb_tail_range : forall b n x, 0 < b -> 0 <= x < 1 -> 0 <= nb_tail b n x <= 1.
Proof.
  intros b n x Hb Hx. destruct n as [|n]; [unfold nb_tail; cbn [seq]; rewrite lsum_nil; lra|]. destruct (proj1 Hx) as [H|<-]; [|rewrite nb_tail_0; lra].
  apply (cdf_range _ (fun x => Rpower x (INR (S n) - 1) * Rpower (1 - x) (b - 1)) _ interval01); [intros y Hy; apply Rmult_lt_0_compat; apply exp_pos|apply nb_tail_cdf, Hb|lra].
Qed.
Definition demo_betainc (a b x : R) : num := Fin (if rltb x 1 then nb_tail b (nfloor a) x else 1).
Definition demo_chi2_ppf (p k : R) : R := real (Lub_Rbar (fun t => 0 < t /\ po_tail (nfloor (k / 2)) t <= p)).
Lemma po_tail_onto : forall n p, 0 < p < 1 -> exists t, 0 < t /\ po_tail (S n) t = p.
Proof.
  intros n p Hp. destruct (po_tail_cdf n) as (_ & Lo & Hi). destruct (Lo (p / 2) ltac:(lra)) as (a & Da & Ha). destruct (Hi ((1 - p) / 2) ltac:(lra)) as (b & Db & Hb).
  pose proof (Ha a Da (Rle_refl _)) as A. pose proof (Hb b Db (Rle_refl _)) as B. apply Rabs_le_between in A, B.
  destruct (IVT_gen (po_tail (S n)) a b p) as (z & Hz & E).
  - intros x. apply continuity_pt_filterlim. apply (ex_derive_continuous (po_tail (S n))). eexists. apply po_tail_derive.
  - split; [eapply Rle_trans; [apply Rmin_l|lra]|eapply Rle_trans; [|apply Rmax_r]; lra].
  - exists z. split; [|exact E]. pose proof (Rmin_glb_lt a b 0 Da Db). lra.
Qed.
Lemma po_tail_incr : forall n x y, 0 < x -> x < y -> po_tail (S n) x < po_tail (S n) y.
Proof. intros n x y Hx Hxy. apply (cdf_incr _ (fun x => Rpower x (2 * INR (S n) / 2 - 1) * exp (- x / 2)) _ interval0); [intros t Ht; apply Rmult_lt_0_compat; apply exp_pos|apply po_tail_cdf|lra|lra|lra]. Qed.
Lemma demo_chi2_ppf_exact : chi2_quantile_exact demo_chi2_ppf.
Proof.
  intros p n Hp. unfold demo_chi2_ppf. replace (2 * INR (S n) / 2) with (INR (S n)) by field. rewrite nfloor_INR.
  destruct (po_tail_onto n p Hp) as (t & Ht & E).
  assert (L : Lub_Rbar (fun t => 0 < t /\ po_tail (S n) t <= p) = Finite t).
  { apply is_lub_Rbar_unique. split.
    - intros x [Hx Hle]. simpl. apply Rnot_lt_le. intros H. pose proof (po_tail_incr n t x Ht H). lra.
    - intros b Hb. apply (Hb t). split; [exact Ht|lra]. }
  rewrite L. simpl. split; [exact Ht|]. intros G HG. rewrite (cdf_unique _ _ _ _ interval0 HG (po_tail_cdf n) t Ht). exact E.
Qed.
Lemma demo_betainc_exact : betainc_exact demo_betainc.
Proof.
  intros n b Hb. exists (nb_tail b (S n)). split; [apply nb_tail_cdf, Hb|]. intros x Hx. unfold demo_betainc. rewrite (proj2 (rltb_true x 1)), nfloor_INR by lra. reflexivity.
Qed.
Definition true_olib : olib := mkOlib demo_betainc (gammaln demo_olib) (poisson_sf demo_olib) ppf_exact gPhi demo_chi2_ppf (np_exp demo_olib).
Theorem true_library : olib_ok true_olib /\ betainc_exact (betainc true_olib) /\ poisson_exact (poisson_sf true_olib) /\ chi2_quantile_exact (chi2_ppf true_olib) /\
  normal_quantile gPhi (o_ppf true_olib) /\ normal_cdf gPhi /\ forall x, norm_cdf true_olib x = gPhi x.
Proof.
  destruct olib_instance as (_ & B & _ & C). pose proof (ppf_exact_ok gPhi (proj1 C79_normal_exists)) as Q.
  split; [split; [|split; [exact B|split; [exact (proj1 Q)|exact C]]]|].
  - split.
    + intros a b x Ha Hb Hx. eexists. split; [reflexivity|]. destruct (rltb x 1) eqn:E; [|lra]. apply rltb_true in E. apply nb_tail_range; lra.
    + intros a a' b x p q Ha Haa Hb Hx Ep Eq. cbn [betainc true_olib] in Ep, Eq. unfold demo_betainc in Ep, Eq. injection Ep as <-. injection Eq as <-. destruct (rltb x 1) eqn:E; [|lra]. apply rltb_true in E.
      pose proof (nfloor_mono a a' Haa) as HM. destruct (proj1 Hx) as [H|<-]; [apply nb_tail_decr; [exact Hb|lra|exact HM]|].
      destruct (nfloor a') as [|k']; [replace (nfloor a) with O by lia; lra|]. rewrite nb_tail_0. apply nb_tail_range; lra.
  - split; [exact demo_betainc_exact|]. split; [|split; [exact demo_chi2_ppf_exact|split; [exact Q|split; [apply C79_normal_exists|reflexivity]]]].
    intros k mu H. cbn [poisson_sf true_olib demo_olib]. unfold demo_poisson. rewrite (proj2 (reqb_false mu 0)), (proj2 (rltb_false mu 0)) by lra. reflexivity.
Qed.
(** a concrete cell: 3 observed, 2 +- 1 expected *)
Example C57_predictive_case : predictive 2 1 = (5, 1 / 3) /\ poisson_obs_mid_p true_olib 0 (Fin 2) (Fin 1) = Fin (1 - predictive_prob 2 1 0 / 2).
Proof.
  assert (E : predictive 2 1 = (5, 1 / 3)) by (unfold predictive; destruct (Rlt_dec 0 2); [f_equal; field|lra]). split; [exact E|].
  rewrite C57_predictive_mid_p; [|apply true_library|lra]. cbn [seq]. rewrite lsum_nil. f_equal. ring.
Qed.
Print Assumptions C57_predictive_mid_p. Print Assumptions C65_exact_value. Print Assumptions C55_uncertainty.
