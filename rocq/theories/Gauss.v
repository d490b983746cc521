(** The standard normal distribution: an instance of what is assumed of scipy.stats.norm. Density, distribution function
    (with the Gaussian integral), tail bounds (Mills) and quantile function. *)
From Coq Require Import Reals Lra Lia Psatz.
From Coquelicot Require Import Coquelicot.
Open Scope R_scope.

Definition gphi (x : R) : R := exp (- x ^ 2 / 2) / sqrt (2 * PI).

Definition gE (x : R) : R := RInt (fun t => exp (- t ^ 2)) 0 x.
Definition gF (x : R) : R := RInt (fun t => exp (- x ^ 2 * (1 + t ^ 2)) / (1 + t ^ 2)) 0 1.

Lemma exp_le_mono : forall a b, a <= b -> exp a <= exp b.
Proof. intros a b [H| ->]; [left; apply exp_increasing; exact H|lra]. Qed.

Lemma cont_gauss : forall c x, continuous (fun t => exp (- (c * t) ^ 2)) x.
Proof. intros c x. apply (ex_derive_continuous (fun t => exp (- (c * t) ^ 2))). auto_derive. exact I. Qed.
Lemma cont_gauss1 : forall x, continuous (fun t => exp (- t ^ 2)) x.
Proof. intros x. apply (ex_derive_continuous (fun t => exp (- t ^ 2))). auto_derive. exact I. Qed.

Lemma gE_derive : forall x, is_derive gE x (exp (- x ^ 2)).
Proof.
  intros x. unfold gE. apply (is_derive_RInt (fun t => exp (- t ^ 2)) (fun y => RInt (fun t => exp (- t ^ 2)) 0 y) 0 x).
  - exists (mkposreal 1 Rlt_0_1). intros y _. apply (RInt_correct (fun t => exp (- t ^ 2)) 0 y).
    apply (ex_RInt_continuous (V := R_CompleteNormedModule)). intros z _. apply cont_gauss1.
  - apply cont_gauss1.
Qed.

Lemma gE_0 : gE 0 = 0.
Proof. unfold gE. apply (RInt_point (V := R_CompleteNormedModule) 0). Qed.

(** substitution t -> x t *)
Lemma gE_subst : forall x, RInt (fun t => x * exp (- (x * t) ^ 2)) 0 1 = gE x.
Proof.
  intros x. unfold gE. pose proof (RInt_comp_lin (V := R_CompleteNormedModule) (fun t => exp (- t ^ 2)) x 0 0 1) as H.
  rewrite Rmult_0_r, Rplus_0_r, Rmult_1_r, Rplus_0_r in H. rewrite <- H.
  - apply RInt_ext. intros t _. unfold scal; simpl; unfold mult; simpl. rewrite Rplus_0_r. reflexivity.
  - apply (ex_RInt_continuous (V := R_CompleteNormedModule)). intros z _. apply cont_gauss1.
Qed.

Lemma gF_derive : forall x, is_derive gF x (- 2 * exp (- x ^ 2) * gE x).
Proof.
  intros x.
  assert (Hd : forall y t, is_derive (fun u => exp (- u ^ 2 * (1 + t ^ 2)) / (1 + t ^ 2)) y (- 2 * y * exp (- y ^ 2 * (1 + t ^ 2)))).
  { intros y t. auto_derive; [nra|]. replace (- (y * (y * 1)) * (1 + t * (t * 1))) with (- y ^ 2 * (1 + t ^ 2)) by ring. simpl. field. nra. }
  assert (HD : is_derive gF x (RInt (fun t => Derive (fun u => exp (- u ^ 2 * (1 + t ^ 2)) / (1 + t ^ 2)) x) 0 1)).
  { unfold gF. apply (is_derive_RInt_param (fun u t => exp (- u ^ 2 * (1 + t ^ 2)) / (1 + t ^ 2)) 0 1 x).
    - exists (mkposreal 1 Rlt_0_1). intros y _ t _. exists (- 2 * y * exp (- y ^ 2 * (1 + t ^ 2))). apply Hd.
    - intros t _. apply (continuity_2d_pt_ext (fun u v => - 2 * u * exp (- u ^ 2 * (1 + v ^ 2)))).
      + intros u v. symmetry. apply is_derive_unique. apply Hd.
      + apply continuity_2d_pt_mult; [apply continuity_2d_pt_mult; [apply continuity_2d_pt_const|apply continuity_2d_pt_id1]|].
        apply (continuity_1d_2d_pt_comp exp (fun u v => - u ^ 2 * (1 + v ^ 2))).
        { apply derivable_continuous_pt. apply derivable_pt_exp. }
        apply continuity_2d_pt_mult.
        * apply continuity_2d_pt_opp. apply (continuity_2d_pt_ext (fun u v => u * u)); [intros; ring|].
          apply continuity_2d_pt_mult; apply continuity_2d_pt_id1.
        * apply continuity_2d_pt_plus; [apply continuity_2d_pt_const|]. apply (continuity_2d_pt_ext (fun u v => v * v)); [intros; ring|].
          apply continuity_2d_pt_mult; apply continuity_2d_pt_id2.
    - exists (mkposreal 1 Rlt_0_1). intros y _. apply (ex_RInt_continuous (V := R_CompleteNormedModule)). intros z _.
      apply (ex_derive_continuous (fun t => exp (- y ^ 2 * (1 + t ^ 2)) / (1 + t ^ 2))). auto_derive. nra. }
  replace (- 2 * exp (- x ^ 2) * gE x) with (RInt (fun t => Derive (fun u => exp (- u ^ 2 * (1 + t ^ 2)) / (1 + t ^ 2)) x) 0 1); [exact HD|].
  rewrite <- (gE_subst x).
  transitivity (scal (- 2 * exp (- x ^ 2)) (RInt (V := R_CompleteNormedModule) (fun t => x * exp (- (x * t) ^ 2)) 0 1)); [|reflexivity].
  rewrite <- (RInt_scal (V := R_CompleteNormedModule) (fun t => x * exp (- (x * t) ^ 2)) 0 1 (- 2 * exp (- x ^ 2))).
  - apply RInt_ext. intros t _. etransitivity; [apply (is_derive_unique _ _ _ (Hd x t))|]. unfold scal; simpl; unfold mult; simpl.
    replace (- (x * (x * 1)) * (1 + t * (t * 1))) with (- (x * (x * 1)) + - (x * t * (x * t * 1))) by ring. rewrite exp_plus. ring.
  - apply (ex_RInt_continuous (V := R_CompleteNormedModule)). intros z _. apply (ex_derive_continuous (fun t => x * exp (- (x * t) ^ 2))). auto_derive. exact I.
Qed.

Lemma gF_0 : gF 0 = PI / 4.
Proof.
  unfold gF. rewrite (RInt_ext _ (fun t => / (1 + t ^ 2))).
  2:{ intros t _. replace (- 0 ^ 2 * (1 + t ^ 2)) with 0 by ring. rewrite exp_0. unfold Rdiv. rewrite Rmult_1_l. reflexivity. }
  assert (H : is_RInt (fun t => / (1 + t ^ 2)) 0 1 (minus (atan 1) (atan 0))).
  { apply (is_RInt_derive atan (fun t => / (1 + t ^ 2))).
    - intros t _. apply is_derive_Reals. exact (derivable_pt_lim_atan t).
    - intros t _. apply (ex_derive_continuous (fun t => / (1 + t ^ 2))). auto_derive. nra. }
  etransitivity; [apply (is_RInt_unique (V := R_CompleteNormedModule) _ _ _ _ H)|]. unfold minus, plus, opp; simpl. rewrite atan_1, atan_0. lra.
Qed.

Lemma gauss_const : forall x, gE x ^ 2 + gF x = PI / 4.
Proof.
  intros x. rewrite <- gF_0. replace (gF 0) with (gE 0 ^ 2 + gF 0) by (rewrite gE_0; ring).
  assert (Hd : forall y, is_derive (fun z => gE z ^ 2 + gF z) y 0).
  { intros y. evar_last.
    - apply (is_derive_plus (fun z => gE z ^ 2) gF y).
      + apply (is_derive_pow gE 2 y). apply gE_derive.
      + apply gF_derive.
    - unfold plus; simpl. ring. }
  destruct (MVT_gen (fun z => gE z ^ 2 + gF z) 0 x (fun _ => 0)) as (c & _ & H).
  - intros y _. apply Hd.
  - intros y _. apply continuity_pt_filterlim. apply (ex_derive_continuous (fun z => gE z ^ 2 + gF z)). exists 0. apply Hd.
  - lra.
Qed.

Lemma gF_bounds : forall x, 0 <= gF x <= exp (- x ^ 2).
Proof.
  intros x. unfold gF.
  assert (He : ex_RInt (fun t => exp (- x ^ 2 * (1 + t ^ 2)) / (1 + t ^ 2)) 0 1).
  { apply (ex_RInt_continuous (V := R_CompleteNormedModule)). intros z _.
    apply (ex_derive_continuous (fun t => exp (- x ^ 2 * (1 + t ^ 2)) / (1 + t ^ 2))). auto_derive. nra. }
  split.
  - apply RInt_ge_0; [lra|exact He|]. intros t _. apply Rlt_le. apply Rdiv_lt_0_compat; [apply exp_pos|nra].
  - apply Rle_trans with (RInt (fun _ => exp (- x ^ 2)) 0 1).
    + apply RInt_le; [lra|exact He|apply ex_RInt_const|]. intros t _.
      apply Rle_trans with (exp (- x ^ 2 * (1 + t ^ 2))).
      * apply (Rmult_le_reg_r (1 + t ^ 2)); [nra|]. unfold Rdiv. rewrite Rmult_assoc, Rinv_l by nra. rewrite Rmult_1_r.
        pose proof (exp_pos (- x ^ 2 * (1 + t ^ 2))). nra.
      * apply exp_le_mono. nra.
    + rewrite RInt_const. unfold scal; simpl; unfold mult; simpl. lra.
Qed.

(** the distribution function *)
Definition gPhi (x : R) : R := 1 / 2 + gE (x / sqrt 2) / sqrt PI.

Lemma sqrt2_pos : 0 < sqrt 2. Proof. apply sqrt_lt_R0. lra. Qed.
Lemma sqrtpi_pos : 0 < sqrt PI. Proof. apply sqrt_lt_R0. apply PI_RGT_0. Qed.
Lemma sqrt2_sq : sqrt 2 ^ 2 = 2. Proof. simpl. rewrite Rmult_1_r. apply sqrt_sqrt. lra. Qed.
Lemma sqrtpi_sq : sqrt PI ^ 2 = PI. Proof. simpl. rewrite Rmult_1_r. apply sqrt_sqrt. pose proof PI_RGT_0. lra. Qed.

Lemma gPhi_derive : forall x, is_derive gPhi x (gphi x).
Proof.
  intros x. unfold gPhi, gphi. pose proof sqrt2_pos. pose proof sqrtpi_pos. pose proof PI_RGT_0.
  evar_last.
  - apply (is_derive_plus (fun _ => 1 / 2) (fun y => gE (y / sqrt 2) / sqrt PI) x).
    + apply is_derive_const.
    + apply (is_derive_ext (fun y => / sqrt PI * gE (y / sqrt 2))); [intros y; unfold Rdiv; apply Rmult_comm|].
      apply (is_derive_scal (fun y => gE (y / sqrt 2)) x (/ sqrt PI)).
      apply (is_derive_comp gE (fun y => y / sqrt 2) x); [apply gE_derive|]. auto_derive; [exact I|]. reflexivity.
  - unfold plus, zero, scal; simpl; unfold mult; simpl.
    rewrite sqrt_mult by lra. replace (- (x / sqrt 2 * (x / sqrt 2 * 1))) with (- (x * (x * 1)) / 2).
    + field. split; lra.
    + rewrite <- sqrt2_sq at 1. field. lra.
Qed.

Lemma gphi_pos : forall x, 0 < gphi x.
Proof. intros x. unfold gphi. apply Rdiv_lt_0_compat; [apply exp_pos|]. apply sqrt_lt_R0. pose proof PI_RGT_0. lra. Qed.

Lemma incr_of_derive : forall f f' : R -> R, (forall x, is_derive f x (f' x)) -> forall a b, a < b -> (forall x, a < x < b -> 0 < f' x) -> f a < f b.
Proof.
  intros f f' Hd a b Hab Hp.
  destruct (MVT_cor2 f f' a b Hab) as (c & H & Hc).
  - intros c _. apply is_derive_Reals. apply Hd.
  - specialize (Hp c Hc). nra.
Qed.

Lemma gPhi_incr : forall a b, a < b -> gPhi a < gPhi b.
Proof. intros a b H. apply (incr_of_derive gPhi gphi gPhi_derive a b H). intros; apply gphi_pos. Qed.

Lemma gE_opp : forall x, gE (- x) = - gE x.
Proof.
  intros x. destruct (MVT_gen (fun z => gE z + gE (- z)) 0 x (fun _ => 0)) as (c & _ & H).
  - intros y _. evar_last.
    + apply (is_derive_plus gE (fun z => gE (- z)) y); [apply gE_derive|].
      apply (is_derive_comp gE (fun z => - z) y); [apply gE_derive|]. auto_derive; [exact I|reflexivity].
    + unfold plus, scal; simpl; unfold mult; simpl. replace (- y * (- y * 1)) with (y * (y * 1)) by ring. ring.
  - intros y _. apply continuity_pt_filterlim. apply (ex_derive_continuous (fun z => gE z + gE (- z))).
    apply (ex_derive_plus gE (fun z => gE (- z))); [eexists; apply gE_derive|].
    apply (ex_derive_comp gE (fun z => - z)); [eexists; apply gE_derive|]. auto_derive. exact I.
  - rewrite Ropp_0, gE_0 in H. lra.
Qed.

Lemma gPhi_0 : gPhi 0 = 1 / 2.
Proof. unfold gPhi. replace (0 / sqrt 2) with 0 by (unfold Rdiv; ring). rewrite gE_0. unfold Rdiv at 2. ring. Qed.
Lemma gPhi_opp : forall x, gPhi (- x) = 1 - gPhi x.
Proof. intros x. unfold gPhi. replace (- x / sqrt 2) with (- (x / sqrt 2)) by (unfold Rdiv; ring). rewrite gE_opp. unfold Rdiv. lra. Qed.

(** 1 - Phi(x) <= exp(-x^2/2) for x >= 0 *)
Lemma gPhi_tail_weak : forall x, 0 <= x -> 1 - exp (- x ^ 2 / 2) <= gPhi x <= 1.
Proof.
  intros x Hx. pose proof sqrt2_pos as H2. pose proof sqrtpi_pos as Hp. pose proof PI_RGT_0 as Hpi.
  assert (HE0 : 0 <= gE (x / sqrt 2)).
  { destruct Hx as [Hx|<-].
    - left. rewrite <- gE_0. apply (incr_of_derive gE (fun x => exp (- x ^ 2)) gE_derive); [apply Rdiv_lt_0_compat; assumption|intros; apply exp_pos].
    - replace (0 / sqrt 2) with 0 by (unfold Rdiv; ring). rewrite gE_0. lra. }
  pose proof (gauss_const (x / sqrt 2)) as Hc. pose proof (gF_bounds (x / sqrt 2)) as Hb.
  assert (E : (x / sqrt 2) ^ 2 = x ^ 2 / 2). { unfold Rdiv. rewrite Rpow_mult_distr, pow_inv, sqrt2_sq. reflexivity. }
  rewrite E in Hb. replace (- (x ^ 2 / 2)) with (- x ^ 2 / 2) in Hb by field.
  set (y := exp (- x ^ 2 / 2)) in *. set (w := gE (x / sqrt 2)) in *. unfold gPhi. fold w.
  assert (Hv0 : 0 <= w / sqrt PI) by (apply Rmult_le_pos; [exact HE0|apply Rlt_le, Rinv_0_lt_compat; exact Hp]).
  assert (Hvv : (w / sqrt PI) ^ 2 * PI = PI / 4 - gF (x / sqrt 2)).
  { replace ((w / sqrt PI) ^ 2) with (w ^ 2 / PI); [rewrite <- Hc; unfold Rdiv at 1; field; lra|].
    unfold Rdiv. rewrite Rpow_mult_distr, pow_inv, sqrtpi_sq. reflexivity. }
  set (v := w / sqrt PI) in *. set (g := gF (x / sqrt 2)) in *.
  pose proof PI2_3_2 as P3. assert (P : PI > 3) by lra. clear Hc E. clearbody v g y. clear w HE0 H2 Hp Hpi P3. split.
  - destruct (Rle_or_lt (1 / 2) y) as [Hy|Hy]; [lra|].
    assert (1 / 2 - y <= v); [|lra]. apply Rnot_lt_le. intros Hlt.
    assert (Q : v ^ 2 < (1 / 2 - y) ^ 2) by nra. assert (Hy0 : 0 <= g) by lra.
    assert (Q1 : PI * v ^ 2 < PI * (1 / 2 - y) ^ 2) by nra. assert (Q2 : 0 <= PI * (y * (1 / 2 - y))) by nra. nra.
  - assert (v <= 1 / 2); [|lra]. apply Rnot_lt_le. intros Hlt. assert (1 / 4 < v ^ 2) by nra. nra.
Qed.

Lemma gPhi_range : forall x, 0 < gPhi x < 1.
Proof.
  assert (H1 : forall x, gPhi x < 1).
  { intros x. apply Rlt_le_trans with (gPhi (Rmax 0 x + 1)).
    - apply gPhi_incr. pose proof (Rmax_r 0 x). lra.
    - apply gPhi_tail_weak. pose proof (Rmax_l 0 x). lra. }
  intros x. split; [|apply H1]. pose proof (H1 (- x)) as H. rewrite gPhi_opp in H. lra.
Qed.

(** Mills: for z > 0, phi(z) z / (1 + z^2) < 1 - Phi(z) < phi(z) / z *)
Lemma gphi_derive : forall x, is_derive gphi x (- x * gphi x).
Proof.
  intros x. unfold gphi. assert (0 < sqrt (2 * PI)) by (apply sqrt_lt_R0; pose proof PI_RGT_0; lra).
  auto_derive; [lra|]. simpl. change (- (x * (x * 1)) / 2) with (- (x * (x * 1)) * / 2). set (q := exp _). field. lra.
Qed.

Lemma gphi_vanish : forall e, 0 < e -> exists K, 0 < K /\ forall x, K <= x -> exp (- x ^ 2 / 2) <= e.
Proof.
  intros e He. exists (1 + 2 / e). assert (0 < 2 / e) by (apply Rdiv_lt_0_compat; lra). split; [lra|]. intros x Hx.
  replace (- x ^ 2 / 2) with (- (x ^ 2 / 2)) by field. rewrite exp_Ropp.
  assert (H1 : 1 + x ^ 2 / 2 <= exp (x ^ 2 / 2)) by apply exp_ineq1_le.
  assert (H2 : 1 / e <= x ^ 2 / 2). { replace (1 / e) with (2 / e / 2) by (field; lra). nra. }
  apply Rle_trans with (/ (1 / e)); [|right; field; lra].
  apply Rinv_le_contravar; [apply Rdiv_lt_0_compat; lra|]. lra.
Qed.

Lemma decreasing_to_zero : forall f f' : R -> R, (forall x, 0 < x -> is_derive f x (f' x)) -> (forall x, 0 < x -> f' x < 0) ->
  (forall e, 0 < e -> exists K, 0 < K /\ forall x, K <= x -> - e <= f x) -> forall z, 0 < z -> 0 < f z.
Proof.
  intros f f' Hd Hn Hl z Hz.
  assert (Hdec : forall a b, 0 < a -> a < b -> f b < f a).
  { intros a b Ha Hab. destruct (MVT_cor2 f f' a b Hab) as (c & H & Hc).
    - intros c Hc. apply is_derive_Reals. apply Hd. lra.
    - pose proof (Hn c ltac:(lra)). nra. }
  pose proof (Hdec z (z + 1) Hz ltac:(lra)) as H1.
  apply Rlt_le_trans with (f z - f (z + 1)); [lra|].
  assert (0 <= f (z + 1)); [|lra]. apply Rnot_lt_le. intros Hneg.
  destruct (Hl (- f (z + 1) / 2) ltac:(lra)) as (K & HK & HH).
  pose proof (HH (Rmax K (z + 2)) (Rmax_l _ _)). pose proof (Hdec (z + 1) (Rmax K (z + 2)) ltac:(lra)) as H2.
  pose proof (Rmax_r K (z + 2)). specialize (H2 ltac:(lra)). lra.
Qed.

Lemma mills_upper : forall z, 0 < z -> 1 - gPhi z < gphi z / z.
Proof.
  intros z Hz. assert (H : 0 < gphi z / z - (1 - gPhi z)); [|lra].
  apply (decreasing_to_zero (fun x => gphi x / x - (1 - gPhi x)) (fun x => - gphi x / x ^ 2)); [| | |exact Hz].
  - intros x Hx. evar_last.
    + apply (is_derive_minus (fun x => gphi x / x) (fun x => 1 - gPhi x) x).
      * apply (is_derive_div gphi (fun x => x) x); [apply gphi_derive|apply (is_derive_id x)|lra].
      * apply (is_derive_minus (fun _ => 1) gPhi x); [apply is_derive_const|apply gPhi_derive].
    + unfold minus, plus, opp, zero, one; simpl. field. lra.
  - intros x Hx. pose proof (gphi_pos x). unfold Rdiv. assert (0 < / x ^ 2) by (apply Rinv_0_lt_compat; nra). nra.
  - intros e He. destruct (gphi_vanish e He) as (K & HK & HH). exists K. split; [exact HK|]. intros x Hx.
    pose proof (gPhi_tail_weak x ltac:(lra)). pose proof (HH x Hx). pose proof (gphi_pos x).
    assert (0 < gphi x / x) by (apply Rdiv_lt_0_compat; lra). lra.
Qed.

Lemma mills_lower : forall z, 0 < z -> gphi z * z / (1 + z ^ 2) < 1 - gPhi z.
Proof.
  intros z Hz. assert (H : 0 < (1 - gPhi z) - gphi z * z / (1 + z ^ 2)); [|lra].
  apply (decreasing_to_zero (fun x => (1 - gPhi x) - gphi x * x / (1 + x ^ 2)) (fun x => - 2 * gphi x / (1 + x ^ 2) ^ 2)); [| | |exact Hz].
  - intros x Hx. evar_last.
    + apply (is_derive_minus (fun x => 1 - gPhi x) (fun x => gphi x * x / (1 + x ^ 2)) x).
      * apply (is_derive_minus (fun _ => 1) gPhi x); [apply is_derive_const|apply gPhi_derive].
      * apply (is_derive_div (fun x => gphi x * x) (fun x => 1 + x ^ 2) x).
        { apply (is_derive_mult gphi (fun x => x) x); [apply gphi_derive|apply (is_derive_id x)|intros; apply Rmult_comm]. }
        { auto_derive; [exact I|reflexivity]. } { nra. }
    + unfold minus, plus, opp, zero, one, mult; simpl. field. nra.
  - intros x Hx. pose proof (gphi_pos x). unfold Rdiv. assert (0 < / (1 + x ^ 2) ^ 2) by (apply Rinv_0_lt_compat; nra). nra.
  - intros e He. destruct (gphi_vanish (e * sqrt (2 * PI))) as (K & HK & HH).
    { apply Rmult_lt_0_compat; [exact He|]. apply sqrt_lt_R0. pose proof PI_RGT_0. lra. }
    exists (Rmax K 1). split; [pose proof (Rmax_r K 1); lra|]. intros x Hx. pose proof (Rmax_l K 1). pose proof (Rmax_r K 1).
    pose proof (gPhi_range x). assert (Hg : gphi x <= e).
    { unfold gphi. assert (0 < sqrt (2 * PI)) by (apply sqrt_lt_R0; pose proof PI_RGT_0; lra).
      apply (Rmult_le_reg_r (sqrt (2 * PI))); [assumption|]. unfold Rdiv. rewrite Rmult_assoc, Rinv_l by lra. rewrite Rmult_1_r. apply HH. lra. }
    pose proof (gphi_pos x). assert (gphi x * x / (1 + x ^ 2) <= gphi x).
    { apply (Rmult_le_reg_r (1 + x ^ 2)); [nra|]. unfold Rdiv. rewrite Rmult_assoc, Rinv_l by nra.
      rewrite Rmult_1_r. apply Rmult_le_compat_l; [lra|]. assert (x <= x ^ 2) by nra. lra. }
    lra.
Qed.

(** the quantile function *)
Definition gquantile (p : R) : R := real (Lub_Rbar (fun z => gPhi z <= p)).

Lemma gPhi_inj : forall a b, gPhi a = gPhi b -> a = b.
Proof. intros a b H. destruct (Rtotal_order a b) as [E|[E|E]]; [apply gPhi_incr in E; lra|exact E|apply gPhi_incr in E; lra]. Qed.

Lemma gPhi_onto : forall p, 0 < p < 1 -> exists z, gPhi z = p.
Proof.
  intros p Hp.
  assert (Hhalf : forall q, 1 / 2 <= q < 1 -> exists z, gPhi z = q).
  { intros q Hq. destruct (gphi_vanish ((1 - q) / 2)) as (K & HK & HH); [lra|]. pose proof (HH K (Rle_refl K)) as HK'.
    pose proof (gPhi_tail_weak K ltac:(lra)) as HT.
    destruct (IVT_gen gPhi 0 K q) as (z & _ & Hz).
    - intros x. apply continuity_pt_filterlim. apply (ex_derive_continuous gPhi). exists (gphi x). apply gPhi_derive.
    - rewrite gPhi_0. rewrite Rmin_left, Rmax_right by lra. lra.
    - exists z. exact Hz. }
  destruct (Rle_or_lt (1 / 2) p) as [H|H]; [apply Hhalf; lra|].
  destruct (Hhalf (1 - p)) as (z & Hz); [lra|]. exists (- z). rewrite gPhi_opp. lra.
Qed.

Lemma gquantile_spec : forall p, 0 < p < 1 -> gPhi (gquantile p) = p.
Proof.
  intros p Hp. destruct (gPhi_onto p Hp) as (z & Hz). unfold gquantile.
  assert (E : Lub_Rbar (fun z => gPhi z <= p) = Finite z).
  { apply is_lub_Rbar_unique. split.
    - intros x Hx. simpl. apply Rnot_lt_le. intros H. apply gPhi_incr in H. lra.
    - intros b Hb. apply (Hb z). lra. }
  rewrite E. simpl. exact Hz.
Qed.
Lemma gquantile_Phi : forall z, gquantile (gPhi z) = z.
Proof. intros z. apply gPhi_inj. apply gquantile_spec. apply gPhi_range. Qed.
Lemma gquantile_incr : forall p q, 0 < p -> p < q -> q < 1 -> gquantile p < gquantile q.
Proof.
  intros p q Hp Hpq Hq. apply Rnot_le_lt. intros H. assert (gPhi (gquantile q) <= gPhi (gquantile p)).
  { destruct H as [H|H]; [left; apply gPhi_incr; exact H|rewrite H; lra]. }
  rewrite !gquantile_spec in H0 by lra. lra.
Qed.
Lemma gquantile_half : gquantile (1 / 2) = 0.
Proof. rewrite <- gPhi_0. apply gquantile_Phi. Qed.
