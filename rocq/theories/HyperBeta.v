(** Gauss' hypergeometric series and its continued fraction: the fraction of SpecBeta converges to the incomplete beta function. *)
From Coq Require Import Reals Lra Lia Psatz List.
From Coquelicot Require Import Coquelicot.
From Verif Require Import RSum SpecBeta SpecGauss BetaProofs CdfProofs.
Open Scope R_scope.

(** coefficients of 2F1(al, be; ga; x) *)
Definition hc (al be ga : R) (k : nat) : R := rising al k * rising be k / (rising ga k * INR (fact k)).
Definition hyp (al be ga x : R) : R := PSeries (hc al be ga) x.

Lemma hc_0 : forall al be ga, hc al be ga 0 = 1.
Proof. intros. unfold hc. simpl. field. Qed.
Lemma hc_sym : forall al be ga k, hc al be ga k = hc be al ga k.
Proof. intros. unfold hc. rewrite (Rmult_comm (rising al k)). reflexivity. Qed.
Lemma hc_pos : forall al be ga k, 0 < al -> 0 < be -> 0 < ga -> 0 < hc al be ga k.
Proof.
  intros al be ga k A B G. unfold hc. pose proof (rising_pos al k A). pose proof (rising_pos be k B). pose proof (rising_pos ga k G). pose proof (fact_pos k).
  apply Rdiv_lt_0_compat; apply Rmult_lt_0_compat; assumption.
Qed.
Lemma hc_S : forall al be ga k, 0 < ga -> hc al be ga (S k) = hc al be ga k * ((al + INR k) * (be + INR k) / ((ga + INR k) * INR (S k))).
Proof.
  intros al be ga k G. unfold hc. cbn [rising]. rewrite fact_simpl, mult_INR. pose proof (rising_pos ga k G). pose proof (fact_pos k). pose proof (pos_INR k).
  assert (0 < INR (S k)) by (apply lt_0_INR; lia). field. lra.
Qed.
Lemma rising_shift : forall z k, rising z (S k) = z * rising (z + 1) k.
Proof.
  intros z k. induction k as [|k IH]; [simpl; ring|]. change (rising z (S (S k))) with (rising z (S k) * (z + INR (S k))). rewrite IH. cbn [rising]. rewrite S_INR. ring.
Qed.

Lemma lim_ratio : forall al be ga, 0 < ga -> is_lim_seq (fun k => (al + INR k) * (be + INR k) / ((ga + INR k) * INR (S k))) 1.
Proof.
  intros al be ga G. set (C := Rabs (al + be - ga - 1) + Rabs (al * be - ga) / ga).
  assert (L : is_lim_seq (fun k => C * / INR (S k)) 0).
  { replace 0 with (C * 0) by ring. apply (is_lim_seq_scal_l (fun k => / INR (S k)) C 0).
    assert (I : is_lim_seq (fun k => INR (S k)) p_infty) by (apply -> is_lim_seq_incr_1; apply is_lim_seq_INR).
    apply (is_lim_seq_inv _ _ I). discriminate. }
  apply (is_lim_seq_le_le (fun k => 1 - C * / INR (S k)) _ (fun k => 1 + C * / INR (S k))).
  - intros k. pose proof (pos_INR k) as K. assert (SK : 0 < INR (S k)) by (apply lt_0_INR; lia).
    assert (E : (al + INR k) * (be + INR k) / ((ga + INR k) * INR (S k)) - 1 = ((al + be - ga - 1) * INR k + (al * be - ga)) / (ga + INR k) * / INR (S k)).
    { rewrite S_INR. field. lra. }
    assert (B : Rabs (((al + be - ga - 1) * INR k + (al * be - ga)) / (ga + INR k)) <= C).
    { unfold Rdiv. rewrite Rabs_mult, (Rabs_pos_eq (/ (ga + INR k))) by (left; apply Rinv_0_lt_compat; lra).
      apply Rmult_le_reg_r with (ga + INR k); [lra|]. rewrite Rmult_assoc, Rinv_l, Rmult_1_r by lra.
      eapply Rle_trans; [apply Rabs_triang|]. rewrite Rabs_mult, (Rabs_pos_eq (INR k)) by exact K. unfold C.
      pose proof (Rabs_pos (al + be - ga - 1)). pose proof (Rabs_pos (al * be - ga)).
      assert (Rabs (al * be - ga) <= Rabs (al * be - ga) / ga * (ga + INR k)).
      { replace (Rabs (al * be - ga)) with (Rabs (al * be - ga) / ga * ga) at 1 by (field; lra). apply Rmult_le_compat_l; [|lra].
        apply Rmult_le_pos; [assumption|left; apply Rinv_0_lt_compat; exact G]. }
      nra. }
    apply Rabs_le_between in B. assert (0 < / INR (S k)) by (apply Rinv_0_lt_compat; exact SK). set (q := ((al + be - ga - 1) * INR k + (al * be - ga)) / (ga + INR k)) in *. nra.
  - replace (Finite 1) with (Finite (1 - 0)) by (f_equal; ring). apply is_lim_seq_minus'; [apply is_lim_seq_const|exact L].
  - replace (Finite 1) with (Finite (1 + 0)) by (f_equal; ring). apply is_lim_seq_plus'; [apply is_lim_seq_const|exact L].
Qed.

Lemma hyp_radius : forall al be ga, 0 < al -> 0 < be -> 0 < ga -> CV_radius (hc al be ga) = Finite 1.
Proof.
  intros al be ga A B G. replace (Finite 1) with (Finite (/ 1)) by (f_equal; field).
  apply CV_radius_finite_DAlembert; [intros n; pose proof (hc_pos al be ga n A B G); lra|lra|].
  apply (is_lim_seq_ext (fun k => (al + INR k) * (be + INR k) / ((ga + INR k) * INR (S k)))); [|apply lim_ratio; exact G].
  intros k. rewrite hc_S by exact G. pose proof (hc_pos al be ga k A B G). pose proof (pos_INR k). assert (0 < INR (S k)) by (apply lt_0_INR; lia).
  rewrite Rabs_pos_eq.
  - field. lra.
  - left. apply Rdiv_lt_0_compat; [|assumption]. apply Rmult_lt_0_compat; [assumption|]. apply Rdiv_lt_0_compat; apply Rmult_lt_0_compat; lra.
Qed.

Lemma hyp_cv : forall al be ga x, 0 < al -> 0 < be -> 0 < ga -> 0 <= x < 1 -> ex_pseries (hc al be ga) x.
Proof. intros al be ga x A B G X. apply CV_radius_inside. rewrite hyp_radius by assumption. simpl. rewrite Rabs_pos_eq; lra. Qed.
Lemma hyp_cvS : forall al be ga x, 0 < al -> 0 < be -> 0 < ga -> 0 <= x < 1 -> ex_series (fun k => hc al be ga k * x ^ k).
Proof. intros al be ga x A B G X. apply (proj1 (ex_pseries_R _ _)). apply hyp_cv; assumption. Qed.
Lemma hyp_Series : forall al be ga x, hyp al be ga x = Series (fun k => hc al be ga k * x ^ k).
Proof. intros. unfold hyp, PSeries. reflexivity. Qed.

Lemma hyp_ge1 : forall al be ga x, 0 < al -> 0 < be -> 0 < ga -> 0 <= x < 1 -> 1 <= hyp al be ga x.
Proof.
  intros al be ga x A B G X. rewrite hyp_Series, Series_incr_1 by (apply hyp_cvS; assumption). rewrite hc_0. simpl (x ^ 0).
  assert (0 <= Series (fun k => hc al be ga (S k) * x ^ S k)); [|lra].
  replace 0 with (Series (fun _ => 0 * 0)).
  - apply Series_le.
    + intros n. rewrite Rmult_0_r. split; [lra|]. apply Rmult_le_pos; [left; apply hc_pos; assumption|apply pow_le; lra].
    + apply -> (ex_series_incr_1 (fun k => hc al be ga k * x ^ k)). apply hyp_cvS; assumption.
  - rewrite Series_scal_l. ring.
Qed.

(** term by term comparison *)
Lemma hyp_le : forall al be ga al' be' ga' c x, 0 < al -> 0 < be -> 0 < ga -> 0 < al' -> 0 < be' -> 0 < ga' -> 0 <= x < 1 ->
  (forall k, hc al be ga k <= c * hc al' be' ga' k) -> hyp al be ga x <= c * hyp al' be' ga' x.
Proof.
  intros al be ga al' be' ga' c x A B G A' B' G' X H. rewrite !hyp_Series, <- Series_scal_l. apply Series_le.
  - intros n. split; [apply Rmult_le_pos; [left; apply hc_pos; assumption|apply pow_le; lra]|]. rewrite <- Rmult_assoc. apply Rmult_le_compat_r; [apply pow_le; lra|apply H].
  - apply (ex_series_scal (K := R_AbsRing) (V := R_NormedModule) c). apply hyp_cvS; assumption.
Qed.

(** contiguous relation *)
Lemma hc_contig : forall al be ga k, 0 < ga -> hc al be ga (S k) = hc al (be + 1) (ga + 1) (S k) - al * (ga - be) / (ga * (ga + 1)) * hc (al + 1) (be + 1) (ga + 2) k.
Proof.
  intros al be ga k G. unfold hc. rewrite (rising_shift al k), (rising_shift be k), (rising_shift ga k).
  change (rising (be + 1) (S k)) with (rising (be + 1) k * (be + 1 + INR k)). rewrite (rising_shift (ga + 1) k). replace (ga + 1 + 1) with (ga + 2) by ring.
  assert (E : (ga + 1) * rising (ga + 2) k = rising (ga + 1) k * (ga + 1 + INR k)).
  { replace (ga + 2) with (ga + 1 + 1) by ring. rewrite <- rising_shift. reflexivity. }
  pose proof (rising_pos (ga + 1) k ltac:(lra)) as P1. pose proof (rising_pos (ga + 2) k ltac:(lra)) as P2. pose proof (fact_pos k) as F. pose proof (pos_INR k) as K.
  rewrite fact_simpl, mult_INR. assert (SK : 0 < INR (S k)) by (apply lt_0_INR; lia).
  replace (rising (ga + 2) k) with (rising (ga + 1) k * (ga + 1 + INR k) / (ga + 1)) by (rewrite <- E; field; lra).
  rewrite S_INR in *. field. repeat split; lra.
Qed.

Lemma hyp_contig_gen : forall (F : R) al be ga x, 0 < al -> 0 < be + 1 -> 0 < ga -> 0 <= x < 1 ->
  is_series (fun k => hc al be ga k * x ^ k) F ->
  F = hyp al (be + 1) (ga + 1) x - al * (ga - be) / (ga * (ga + 1)) * x * hyp (al + 1) (be + 1) (ga + 2) x.
Proof.
  intros F al be ga x A B G X HF.
  assert (S1 : ex_series (fun k => hc al (be + 1) (ga + 1) k * x ^ k)) by (apply hyp_cvS; lra).
  assert (S2 : ex_series (fun k => hc (al + 1) (be + 1) (ga + 2) k * x ^ k)) by (apply hyp_cvS; lra).
  rewrite <- (is_series_unique _ _ HF). rewrite !hyp_Series. rewrite (Series_incr_1 _ (ex_intro _ F HF)), (Series_incr_1 _ S1). rewrite !hc_0.
  rewrite <- Series_scal_l.
  assert (S1' : ex_series (fun k => hc al (be + 1) (ga + 1) (S k) * x ^ S k)) by (apply -> (ex_series_incr_1 (fun k => hc al (be + 1) (ga + 1) k * x ^ k)); exact S1).
  transitivity (1 * x ^ 0 + (Series (fun k => hc al (be + 1) (ga + 1) (S k) * x ^ S k) - Series (fun n => al * (ga - be) / (ga * (ga + 1)) * x * (hc (al + 1) (be + 1) (ga + 2) n * x ^ n)))); [|ring].
  rewrite <- Series_minus; [|exact S1'|apply (ex_series_scal (K := R_AbsRing) (V := R_NormedModule) (al * (ga - be) / (ga * (ga + 1)) * x)); exact S2].
  f_equal. apply Series_ext. intros k. rewrite (hc_contig al be ga k G). simpl. ring.
Qed.

Section Fraction.
Variables a b x : R.
Hypothesis Ha : 0 < a.
Hypothesis Hb : 0 < b.
Hypothesis Hx : 0 <= x < 1.

(** the values of the tails, up to a common factor *)
Definition ev (m : nat) : R := match m with O => 1 | S _ => hyp (a + b + INR m) (INR m) (a + 2 * INR m) x end.
Definition od (m : nat) : R := hyp (a + b + INR m) (INR m + 1) (a + 2 * INR m + 1) x.

Lemma ev_S : forall m, ev (S m) = hyp (a + b + INR m + 1) (INR m + 1) (a + 2 * INR m + 2) x.
Proof. intros m. unfold ev. rewrite S_INR. f_equal; ring. Qed.
Lemma od_S : forall m, od (S m) = hyp (a + b + INR m + 1) (INR m + 2) (a + 2 * INR m + 3) x.
Proof. intros m. unfold od. rewrite S_INR. f_equal; ring. Qed.

Lemma rising_zero : forall k, rising 0 (S k) = 0.
Proof. induction k as [|k IH]; [simpl; ring|]. change (rising 0 (S (S k))) with (rising 0 (S k) * (0 + INR (S k))). rewrite IH. ring. Qed.
Lemma one_series : forall al ga, is_series (fun k => hc al 0 ga k * x ^ k) 1.
Proof.
  intros al ga. apply (is_series_decr_1 (K := R_AbsRing) (V := R_NormedModule)). rewrite hc_0. simpl (x ^ 0).
  apply (is_series_ext (fun _ => 0)).
  - intros k. unfold hc. rewrite rising_zero. match goal with |- ?l = ?r => change (@eq R l r) end. unfold Rdiv. ring.
  - match goal with |- is_series _ ?l => assert (E : l = 0) by (unfold plus, opp; simpl; match goal with |- ?l = ?r => change (@eq R l r) end; ring); rewrite E end.
    apply is_series_Reals. intros e He. exists 0%nat. intros n _. rewrite sum_eq_R0 by reflexivity. unfold R_dist. rewrite Rminus_0_r, Rabs_R0. exact He.
Qed.

Lemma ev_rec : forall m, ev m = od m + d_odd a b x (INR m) * ev (S m).
Proof.
  intros m. pose proof (pos_INR m) as M.
  assert (HF : is_series (fun k => hc (a + b + INR m) (INR m) (a + 2 * INR m) k * x ^ k) (ev m)).
  { destruct m as [|m].
    - unfold ev. simpl. apply one_series.
    - unfold ev. rewrite hyp_Series. apply Series_correct. assert (0 < INR (S m)) by (apply lt_0_INR; lia). apply hyp_cvS; lra. }
  rewrite (hyp_contig_gen (ev m) (a + b + INR m) (INR m) (a + 2 * INR m) x ltac:(lra) ltac:(lra) ltac:(lra) Hx HF). rewrite ev_S. unfold od, d_odd.
  replace (a + 2 * INR m - INR m) with (a + INR m) by ring. unfold Rdiv. ring.
Qed.
Lemma hyp_sym : forall al be ga, hyp al be ga x = hyp be al ga x.
Proof. intros. unfold hyp. apply PSeries_ext. intros k. apply hc_sym. Qed.
Lemma od_rec : forall m, od m = ev (S m) + d_even a b x (INR (S m)) * od (S m).
Proof.
  intros m. pose proof (pos_INR m) as M. unfold od at 1. rewrite hyp_sym.
  assert (HF : is_series (fun k => hc (INR m + 1) (a + b + INR m) (a + 2 * INR m + 1) k * x ^ k) (hyp (INR m + 1) (a + b + INR m) (a + 2 * INR m + 1) x)).
  { rewrite hyp_Series. apply Series_correct. apply hyp_cvS; lra. }
  rewrite (hyp_contig_gen _ (INR m + 1) (a + b + INR m) (a + 2 * INR m + 1) x ltac:(lra) ltac:(lra) ltac:(lra) Hx HF). rewrite ev_S, od_S. rewrite (hyp_sym (INR m + 1) (a + b + INR m + 1)), (hyp_sym (INR m + 1 + 1)).
  replace (INR m + 1 + 1) with (INR m + 2) by ring. replace (a + 2 * INR m + 1 + 1) with (a + 2 * INR m + 2) by ring. replace (a + 2 * INR m + 1 + 2) with (a + 2 * INR m + 3) by ring.
  unfold d_even. rewrite S_INR. unfold Rminus at 1. f_equal. rewrite <- Ropp_mult_distr_l_reverse. f_equal. field. lra.
Qed.

Lemma ev_ge1 : forall m, 1 <= ev m.
Proof. intros [|m]; [simpl; lra|]. unfold ev. assert (0 < INR (S m)) by (apply lt_0_INR; lia). apply hyp_ge1; lra. Qed.
Lemma od_ge1 : forall m, 1 <= od m.
Proof. intros m. unfold od. pose proof (pos_INR m). apply hyp_ge1; lra. Qed.

(** the values of the tails *)
Definition te (m : nat) : R := ev m / od m.
Definition to (m : nat) : R := od m / ev (S m).
Lemma te_pos : forall m, 0 < te m.
Proof. intros m. unfold te. pose proof (ev_ge1 m). pose proof (od_ge1 m). apply Rdiv_lt_0_compat; lra. Qed.
Lemma to_pos : forall m, 0 < to m.
Proof. intros m. unfold to. pose proof (ev_ge1 (S m)). pose proof (od_ge1 m). apply Rdiv_lt_0_compat; lra. Qed.
Lemma te_rec : forall m, te m = 1 + d_odd a b x (INR m) / to m.
Proof. intros m. unfold te, to. rewrite ev_rec. pose proof (ev_ge1 (S m)). pose proof (od_ge1 m). field. lra. Qed.
Lemma to_rec : forall m, to m = 1 + d_even a b x (INR (S m)) / te (S m).
Proof. intros m. unfold to, te. rewrite od_rec. pose proof (ev_ge1 (S m)). pose proof (od_ge1 (S m)). field. lra. Qed.

(** the value of the k-th tail *)
Definition tv (k : nat) : R := if Nat.even k then te (Nat.div2 k) else to (Nat.div2 k).
Lemma tv_even : forall m, tv (2 * m) = te m.
Proof. intros m. unfold tv. rewrite Nat.even_mul. simpl orb. rewrite Nat.div2_double. reflexivity. Qed.
Lemma tv_odd : forall m, tv (S (2 * m)) = to m.
Proof. intros m. unfold tv. rewrite Nat.even_succ, <- Nat.negb_even, Nat.even_mul. simpl orb. rewrite Nat.div2_succ_double. reflexivity. Qed.
Lemma parity : forall k, exists m, k = (2 * m)%nat \/ k = S (2 * m).
Proof. intros k. exists (Nat.div2 k). pose proof (Nat.div2_odd k) as E. destruct (Nat.odd k); simpl in E; lia. Qed.
Lemma tv_pos : forall k, 0 < tv k.
Proof. intros k. destruct (parity k) as [m [-> | ->]]; [rewrite tv_even; apply te_pos|rewrite tv_odd; apply to_pos]. Qed.
Lemma tv_rec : forall k, tv k = 1 + coeff a b x (S k) / tv (S k).
Proof.
  intros k. destruct (parity k) as [m [-> | ->]].
  - rewrite coeff_odd, tv_even, tv_odd. apply te_rec.
  - replace (S (S (2 * m))) with (2 * S m)%nat by lia. rewrite coeff_even, tv_even, tv_odd. apply to_rec.
Qed.
Lemma tv_0 : tv 0 = 1 / od 0.
Proof. reflexivity. Qed.

(** upper bounds of 1/t *)
Lemma rising_ratio : forall z k, 0 < z -> rising (z + 1) k * z = rising z k * (z + INR k).
Proof. intros z k Z. change (rising z k * (z + INR k)) with (rising z (S k)). rewrite rising_shift. ring. Qed.
Lemma hc_up : forall al be ga k c, 0 < al -> 0 < be -> 0 < ga -> 1 <= c -> ga <= c * be -> hc al (be + 1) (ga + 1) k <= c * hc al be ga k.
Proof.
  intros al be ga k c A B G C D. unfold hc. pose proof (rising_ratio be k B) as E1. pose proof (rising_ratio ga k G) as E2.
  pose proof (rising_pos al k A) as P1. pose proof (rising_pos be k B) as P2. pose proof (rising_pos ga k G) as P3. pose proof (fact_pos k) as F. pose proof (pos_INR k) as K.
  replace (rising (be + 1) k) with (rising be k * ((be + INR k) / be)) by (unfold Rdiv; rewrite <- Rmult_assoc, <- E1; field; lra).
  replace (rising (ga + 1) k) with (rising ga k * ((ga + INR k) / ga)) by (unfold Rdiv; rewrite <- Rmult_assoc, <- E2; field; lra).
  replace (rising al k * (rising be k * ((be + INR k) / be)) / (rising ga k * ((ga + INR k) / ga) * INR (fact k))) with ((be + INR k) / be * (ga / (ga + INR k)) * (rising al k * rising be k / (rising ga k * INR (fact k)))) by (field; repeat split; lra).
  apply Rmult_le_compat_r.
  - left. apply Rdiv_lt_0_compat; apply Rmult_lt_0_compat; assumption.
  - apply Rmult_le_reg_r with (be * (ga + INR k)); [apply Rmult_lt_0_compat; lra|].
    replace ((be + INR k) / be * (ga / (ga + INR k)) * (be * (ga + INR k))) with ((be + INR k) * ga) by (field; lra).
    assert (Q1 : 1 * (be * ga) <= c * (be * ga)) by (apply Rmult_le_compat_r; [apply Rmult_le_pos; lra|lra]). assert (Q2 : ga * INR k <= c * be * INR k) by (apply Rmult_le_compat_r; lra).
    replace (c * (be * (ga + INR k))) with (c * (be * ga) + c * be * INR k) by ring. lra.
Qed.
Lemma od_le : forall m c, (1 <= m)%nat -> 2 + a / INR m <= c -> od m <= c * ev m.
Proof.
  intros m c M C. assert (P : 0 < INR m) by (apply lt_0_INR; lia). assert (Q : 0 < a / INR m) by (apply Rdiv_lt_0_compat; assumption).
  destruct m as [|m]; [lia|]. unfold od, ev. apply hyp_le; try lra. intros k. apply hc_up; try lra.
  apply Rle_trans with ((2 + a / INR (S m)) * INR (S m)); [right; field; lra|apply Rmult_le_compat_r; lra].
Qed.
Lemma ev_le : forall m c, 2 + 1 / INR m <= c -> (1 <= m)%nat -> ev (S m) <= c * od m.
Proof.
  intros m c C M. assert (P : 0 < INR m) by (apply lt_0_INR; lia). assert (Q : 0 < 1 / INR m) by (apply Rdiv_lt_0_compat; lra). assert (E : 1 / INR m * INR m = 1) by (field; lra).
  rewrite ev_S. unfold od. apply hyp_le; try lra. intros k. rewrite (hc_sym (a + b + INR m + 1)), (hc_sym (a + b + INR m)).
  replace (a + 2 * INR m + 2) with (a + 2 * INR m + 1 + 1) by ring. apply hc_up; try lra.
  set (h := 1 / INR m) in *. nra.
Qed.

(** the coefficients settle near -x/4 *)
Lemma d_odd_band : forall y, x < y -> exists M, forall m, M <= INR m -> 0 <= - d_odd a b x (INR m) <= y / 4.
Proof.
  intros y Y. set (C := 4 * x * (2 * a + b)). set (D := 4 * x * (a * (a + b))). exists (1 + (C + D) / (4 * (y - x))). intros m HM.
  assert (C0 : 0 <= C) by (unfold C; apply Rmult_le_pos; lra). assert (D0 : 0 <= D) by (unfold D; apply Rmult_le_pos; [lra|apply Rmult_le_pos; lra]).
  assert (Q0 : 0 <= (C + D) / (4 * (y - x))) by (apply Rmult_le_pos; [lra|left; apply Rinv_0_lt_compat; lra]).
  assert (M1 : 1 <= INR m) by lra. assert (QE : (C + D) <= 4 * (y - x) * INR m).
  { apply Rle_trans with (4 * (y - x) * ((C + D) / (4 * (y - x)))); [right; field; lra|apply Rmult_le_compat_l; lra]. }
  set (t := INR m) in *. unfold d_odd.
  replace (- (- ((a + t) * (a + b + t) * x) / ((a + 2 * t) * (a + 2 * t + 1)))) with ((a + t) * (a + b + t) * x / ((a + 2 * t) * (a + 2 * t + 1))) by (field; lra).
  assert (P : 0 < (a + 2 * t) * (a + 2 * t + 1)) by (apply Rmult_lt_0_compat; lra). split.
  - apply Rmult_le_pos; [|left; apply Rinv_0_lt_compat; exact P]. apply Rmult_le_pos; [|lra]. apply Rmult_le_pos; lra.
  - apply Rmult_le_reg_r with ((a + 2 * t) * (a + 2 * t + 1)); [exact P|].
    replace ((a + t) * (a + b + t) * x / ((a + 2 * t) * (a + 2 * t + 1)) * ((a + 2 * t) * (a + 2 * t + 1))) with ((a + t) * (a + b + t) * x) by (field; lra).
    assert (E1 : 4 * ((a + t) * (a + b + t) * x) = 4 * x * (t * t) + C * t + D) by (unfold C, D; ring).
    assert (E2 : y * ((a + 2 * t) * (a + 2 * t + 1)) = 4 * y * (t * t) + y * ((4 * a + 2) * t + a * a + a)) by ring.
    assert (E3 : 0 <= y * ((4 * a + 2) * t + a * a + a)) by (apply Rmult_le_pos; [lra|]; nra).
    assert (E4 : (C + D) * t <= 4 * (y - x) * t * t) by (apply Rmult_le_compat_r; lra).
    assert (E5 : D <= D * t) by (apply Rle_trans with (D * 1); [lra|apply Rmult_le_compat_l; lra]).
    replace (4 * (y - x) * t * t) with (4 * y * (t * t) - 4 * x * (t * t)) in E4 by ring. rewrite Rmult_plus_distr_r in E4. lra.
Qed.
Lemma d_even_band : forall y, x < y -> exists M, forall m, M <= INR m -> 0 <= - d_even a b x (INR m) <= y / 4.
Proof.
  intros y Y. exists (1 + b + y / (2 * (y - x))). intros m HM.
  assert (Q0 : 0 < y / (2 * (y - x))) by (apply Rdiv_lt_0_compat; lra).
  assert (M1 : 1 + b <= INR m) by lra. assert (QE : y <= 2 * (y - x) * INR m).
  { apply Rle_trans with (2 * (y - x) * (y / (2 * (y - x)))); [right; field; lra|apply Rmult_le_compat_l; lra]. }
  set (t := INR m) in *. unfold d_even.
  replace (- (t * (b - t) * x / ((a + 2 * t - 1) * (a + 2 * t)))) with (t * (t - b) * x / ((a + 2 * t - 1) * (a + 2 * t))) by (field; lra).
  assert (P : 0 < (a + 2 * t - 1) * (a + 2 * t)) by (apply Rmult_lt_0_compat; lra). split.
  - apply Rmult_le_pos; [|left; apply Rinv_0_lt_compat; exact P]. apply Rmult_le_pos; [|lra]. apply Rmult_le_pos; lra.
  - apply Rmult_le_reg_r with ((a + 2 * t - 1) * (a + 2 * t)); [exact P|].
    replace (t * (t - b) * x / ((a + 2 * t - 1) * (a + 2 * t)) * ((a + 2 * t - 1) * (a + 2 * t))) with (t * (t - b) * x) by (field; lra).
    assert (E1 : 4 * (t * (t - b) * x) = 4 * x * (t * t) - 4 * (b * t * x)) by ring. assert (E0 : 0 <= b * t * x) by (apply Rmult_le_pos; [apply Rmult_le_pos; lra|lra]).
    assert (E2 : y * ((a + 2 * t - 1) * (a + 2 * t)) = 4 * y * (t * t) - 2 * (y * t) + y * (4 * a * t + a * a - a)) by ring.
    assert (E3 : 0 <= y * (4 * a * t + a * a - a)) by (apply Rmult_le_pos; [lra|]; nra).
    assert (E4 : y * t <= 2 * (y - x) * t * t) by (apply Rmult_le_compat_r; lra).
    replace (2 * (y - x) * t * t) with (2 * y * (t * t) - 2 * x * (t * t)) in E4 by ring. lra.
Qed.

Lemma coeff_band : forall y, x < y -> exists K, forall k, (K <= k)%nat -> 0 <= - coeff a b x (S k) <= y / 4.
Proof.
  intros y Y. destruct (d_odd_band y Y) as [M1 H1]. destruct (d_even_band y Y) as [M2 H2]. destruct (INR_above M1) as [K1 E1]. destruct (INR_above M2) as [K2 E2].
  exists (2 * (K1 + K2))%nat. intros k HK. destruct (parity k) as [m [-> | ->]].
  - rewrite coeff_odd. apply H1. apply Rle_trans with (INR K1); [exact E1|apply le_INR; lia].
  - replace (S (S (2 * m))) with (2 * S m)%nat by lia. rewrite coeff_even. apply H2. apply Rle_trans with (INR K2); [exact E2|apply le_INR; lia].
Qed.
Lemma tv_low : forall c, 2 < c -> exists K, forall k, (K <= k)%nat -> 1 <= c * tv k.
Proof.
  intros c C. destruct (INR_above ((a + 1) / (c - 2) + 1)) as [K E]. exists (2 * K)%nat. intros k HK.
  assert (Q : 0 < (a + 1) / (c - 2)) by (apply Rdiv_lt_0_compat; lra).
  assert (G : forall m, (K <= m)%nat -> (1 <= m)%nat /\ 2 + (a + 1) / INR m <= c).
  { intros m HM. apply le_INR in HM. assert (M1 : 1 < INR m) by lra. split; [apply INR_le; simpl; lra|].
    assert ((a + 1) / INR m <= c - 2); [|lra]. apply Rmult_le_reg_r with (INR m); [lra|]. replace ((a + 1) / INR m * INR m) with ((a + 1) / (c - 2) * (c - 2)) by (field; lra).
    rewrite (Rmult_comm (c - 2)). apply Rmult_le_compat_r; lra. }
  destruct (parity k) as [m [-> | ->]].
  - rewrite tv_even. unfold te. destruct (G m ltac:(lia)) as [M1 M2]. pose proof (od_ge1 m) as O. assert (P : 0 < INR m) by (apply lt_0_INR; lia).
    assert (L : od m <= c * ev m) by (apply od_le; [exact M1|]; apply Rle_trans with (2 + (a + 1) / INR m); [|exact M2]; apply Rplus_le_compat_l, Rmult_le_compat_r; [left; apply Rinv_0_lt_compat; exact P|lra]).
    apply Rmult_le_reg_r with (od m); [lra|]. replace (c * (ev m / od m) * od m) with (c * ev m) by (field; lra). lra.
  - rewrite tv_odd. unfold to. destruct (G m ltac:(lia)) as [M1 M2]. pose proof (ev_ge1 (S m)) as O. assert (P : 0 < INR m) by (apply lt_0_INR; lia).
    assert (L : ev (S m) <= c * od m) by (apply ev_le; [|exact M1]; apply Rle_trans with (2 + (a + 1) / INR m); [|exact M2]; apply Rplus_le_compat_l, Rmult_le_compat_r; [left; apply Rinv_0_lt_compat; exact P|lra]).
    apply Rmult_le_reg_r with (ev (S m)); [lra|]. replace (c * (od m / ev (S m)) * ev (S m)) with (c * od m) by (field; lra). lra.
Qed.

(** far out the truncated tails approach their values geometrically *)
Lemma far_tails : exists K y, 0 <= y < 1 /\ forall len k, (K <= k)%nat -> Rabs (cf_tail a b x k len - tv k) <= y ^ len.
Proof.
  set (y := (1 + x) / 2). assert (Y : 0 < y < 1) by (unfold y; lra). assert (XY : x < y) by (unfold y; lra).
  set (r := sqrt (1 - y)). assert (R1 : 0 < r) by (apply sqrt_lt_R0; lra). assert (R2 : r * r = 1 - y) by (apply sqrt_sqrt; lra).
  destruct (coeff_band y XY) as [K1 B1]. destruct (tv_low (2 * (1 + r)) ltac:(lra)) as [K2 B2]. exists (K1 + K2)%nat, y. split; [lra|].
  assert (LOW : forall len k, (K1 + K2 <= k)%nat -> (1 + r) / 2 <= cf_tail a b x k len).
  { induction len as [|len IH]; intros k HK; cbn [cf_tail]; [nra|]. specialize (IH (S k) ltac:(lia)). pose proof (B1 k ltac:(lia)) as [N1 N2].
    set (s := cf_tail a b x (S k) len) in *. set (d := coeff a b x (S k)) in *. assert (SP : 0 < s) by lra.
    assert (- d / s <= (1 - r) / 2).
    { apply Rmult_le_reg_r with s; [exact SP|]. replace (- d / s * s) with (- d) by (field; lra). apply Rle_trans with ((1 - r) / 2 * ((1 + r) / 2)); [nra|]. apply Rmult_le_compat_l; [nra|exact IH]. }
    unfold Rdiv in *. lra. }
  induction len as [|len IH]; intros k HK.
  - cbn [cf_tail pow]. pose proof (tv_pos k) as P. pose proof (tv_rec k) as E. pose proof (B1 k ltac:(lia)) as [N1 N2]. pose proof (tv_pos (S k)) as P'.
    assert (0 <= - coeff a b x (S k) / tv (S k)) by (apply Rmult_le_pos; [exact N1|left; apply Rinv_0_lt_compat; exact P']). unfold Rdiv in *. apply Rabs_le. lra.
  - cbn [cf_tail pow]. rewrite (tv_rec k). specialize (IH (S k) ltac:(lia)). pose proof (LOW len (S k) ltac:(lia)) as L. pose proof (B2 (S k) ltac:(lia)) as T. pose proof (tv_pos (S k)) as P'. pose proof (B1 k ltac:(lia)) as [N1 N2].
    set (s := cf_tail a b x (S k) len) in *. set (t := tv (S k)) in *. set (d := coeff a b x (S k)) in *. assert (SP : 0 < s) by lra.
    replace (1 + d / s - (1 + d / t)) with ((- d) / (s * t) * (s - t)) by (field; lra). rewrite Rabs_mult, Rabs_pos_eq by (apply Rmult_le_pos; [exact N1|left; apply Rinv_0_lt_compat; apply Rmult_lt_0_compat; assumption]).
    apply Rmult_le_compat; [|apply Rabs_pos| |exact IH].
    + apply Rmult_le_pos; [exact N1|left; apply Rinv_0_lt_compat; apply Rmult_lt_0_compat; assumption].
    + apply Rmult_le_reg_r with (s * t); [apply Rmult_lt_0_compat; assumption|]. replace (- d / (s * t) * (s * t)) with (- d) by (field; lra).
      apply Rle_trans with (y / 4); [exact N2|]. assert (1 / 4 <= s * t); [|nra].
      assert (1 * s <= 2 * (1 + r) * t * s) by (apply Rmult_le_compat_r; lra). assert ((1 + r) / 2 * 1 <= s * 1) by lra. nra.
Qed.

Lemma tail_limit_S : forall k, is_lim_seq (cf_tail a b x (S k)) (tv (S k)) -> is_lim_seq (cf_tail a b x k) (tv k).
Proof.
  intros k H. apply is_lim_seq_incr_1. cbn [cf_tail]. rewrite tv_rec. pose proof (tv_pos (S k)) as P.
  apply is_lim_seq_plus'; [apply is_lim_seq_const|]. apply is_lim_seq_div'; [apply is_lim_seq_const|exact H|lra].
Qed.
Lemma tail_limit : forall k, is_lim_seq (cf_tail a b x k) (tv k).
Proof.
  destruct far_tails as [K [y [Y H]]].
  assert (G : forall k, (K <= k)%nat -> is_lim_seq (cf_tail a b x k) (tv k)).
  { intros k HK. apply (is_lim_seq_le_le (fun n => tv k - y ^ n) _ (fun n => tv k + y ^ n)).
    - intros n. pose proof (H n k HK) as B. apply Rabs_le_between in B. lra.
    - replace (Finite (tv k)) with (Finite (tv k - 0)) by (f_equal; ring). apply is_lim_seq_minus'; [apply is_lim_seq_const|apply is_lim_seq_geom; rewrite Rabs_pos_eq; lra].
    - replace (Finite (tv k)) with (Finite (tv k + 0)) by (f_equal; ring). apply is_lim_seq_plus'; [apply is_lim_seq_const|apply is_lim_seq_geom; rewrite Rabs_pos_eq; lra]. }
  assert (D : forall j k, (K <= k + j)%nat -> is_lim_seq (cf_tail a b x k) (tv k)).
  { induction j as [|j IH]; intros k HK; [apply G; lia|]. apply tail_limit_S. apply IH. lia. }
  intros k. apply (D K). lia.
Qed.

(** the fraction converges to 2F1(a+b, 1; a+1; x) *)
Definition vbeta : R := hyp (a + b) 1 (a + 1) x.
Lemma od_0 : od 0 = vbeta.
Proof. unfold od, vbeta. simpl. f_equal; ring. Qed.
Lemma convergent_limit : is_lim_seq (convergent a b x) vbeta.
Proof.
  unfold convergent. replace (Finite vbeta) with (Finite (1 / tv 0)).
  - apply is_lim_seq_div'; [apply is_lim_seq_const|apply tail_limit|pose proof (tv_pos 0); lra].
  - f_equal. rewrite tv_0, od_0. pose proof (od_ge1 0) as P. rewrite od_0 in P. field. lra.
Qed.
End Fraction.
