(** The series 2F1(a+b, 1; a+1; x) and the distribution function of the beta law. *)
From Coq Require Import Reals Lra Lia Psatz List.
From Coquelicot Require Import Coquelicot.
From Verif Require Import Base RSum StatsModel SpecBeta SpecGauss CdfProofs HyperBeta.
Open Scope R_scope.

Section Integral.
Variables a b : R.
Hypothesis Ha : 0 < a.
Hypothesis Hb : 0 < b.

Notation v := (hc (a + b) 1 (a + 1)).
Lemma v_pos : forall k, 0 < v k.
Proof. intros k. apply hc_pos; lra. Qed.
Lemma v_rec : forall k, (a + INR (S k)) * v (S k) = (a + b + INR k) * v k.
Proof. intros k. rewrite hc_S by lra. pose proof (pos_INR k). rewrite S_INR. field. lra. Qed.

Lemma v_derive : forall x, 0 <= x < 1 -> is_derive (vbeta a b) x (PSeries (PS_derive v) x).
Proof. intros x X. unfold vbeta, hyp. apply is_derive_PSeries. rewrite hyp_radius by lra. simpl. rewrite Rabs_pos_eq; lra. Qed.

Lemma v_ode : forall x, 0 <= x < 1 -> x * (1 - x) * PSeries (PS_derive v) x + (a - (a + b) * x) * vbeta a b x = a.
Proof.
  intros x X. set (D := PSeries (PS_derive v) x). set (S0 := vbeta a b x).
  assert (SV : is_series (fun k => v k * x ^ k) S0) by (unfold S0, vbeta; rewrite hyp_Series; apply Series_correct, hyp_cvS; lra).
  assert (SD : is_series (fun k => INR (S k) * v (S k) * x ^ k) D).
  { unfold D, PSeries, PS_derive. apply Series_correct. apply (proj1 (ex_pseries_R (fun n => INR (S n) * v (S n)) x)).
    apply CV_radius_inside. change (fun n => INR (S n) * v (S n)) with (PS_derive v). rewrite CV_radius_derive, hyp_radius by lra. simpl. rewrite Rabs_pos_eq; lra. }
  (* sum of k v_k x^k *)
  assert (SK : is_series (fun k => INR k * v k * x ^ k) (x * D)).
  { apply (is_series_decr_1 (K := R_AbsRing) (V := R_NormedModule)). simpl INR. match goal with |- is_series _ ?l => assert (E : l = x * D) end.
    { unfold plus, opp. simpl. match goal with |- ?l = ?r => change (@eq R l r) end. ring. }
    rewrite E. apply (is_series_ext (fun k => scal x (INR (S k) * v (S k) * x ^ k))).
    - intros k. unfold scal. simpl. unfold mult. simpl. match goal with |- ?l = ?r => change (@eq R l r) end. ring.
    - exact (is_series_scal (K := R_AbsRing) (V := R_NormedModule) x _ _ SD). }
  assert (SV1 : is_series (fun k => v (S k) * x ^ S k) (S0 - 1)).
  { pose proof (is_series_incr_1 (K := R_AbsRing) (V := R_NormedModule) (fun k => v k * x ^ k) (S0 - 1)) as H. apply H.
    match goal with |- is_series _ ?l => assert (E : l = S0) end; [|rewrite E; exact SV].
    rewrite hc_0. unfold plus. simpl. match goal with |- ?l = ?r => change (@eq R l r) end. ring. }
  assert (SK1 : is_series (fun k => INR (S k) * v (S k) * x ^ S k) (x * D)).
  { apply (is_series_ext (fun k => scal x (INR (S k) * v (S k) * x ^ k))); [|exact (is_series_scal (K := R_AbsRing) (V := R_NormedModule) x _ _ SD)].
    intros k. unfold scal. simpl. unfold mult. simpl. match goal with |- ?l = ?r => change (@eq R l r) end. ring. }
  assert (L : is_series (fun k => (a + INR (S k)) * v (S k) * x ^ S k) (a * (S0 - 1) + x * D)).
  { apply (is_series_ext (fun k => plus (scal a (v (S k) * x ^ S k)) (INR (S k) * v (S k) * x ^ S k))).
    - intros k. unfold plus, scal. simpl. unfold mult. simpl. match goal with |- ?l = ?r => change (@eq R l r) end. ring.
    - apply (is_series_plus (K := R_AbsRing) (V := R_NormedModule)); [exact (is_series_scal (K := R_AbsRing) (V := R_NormedModule) a _ _ SV1)|exact SK1]. }
  assert (Rr : is_series (fun k => (a + INR (S k)) * v (S k) * x ^ S k) (x * ((a + b) * S0 + x * D))).
  { apply (is_series_ext (fun k => scal x (plus (scal (a + b) (v k * x ^ k)) (INR k * v k * x ^ k)))).
    - intros k. rewrite v_rec. unfold plus, scal. simpl. unfold mult. simpl. match goal with |- ?l = ?r => change (@eq R l r) end. ring.
    - apply (is_series_scal (K := R_AbsRing) (V := R_NormedModule) x). apply (is_series_plus (K := R_AbsRing) (V := R_NormedModule)); [exact (is_series_scal (K := R_AbsRing) (V := R_NormedModule) (a + b) _ _ SV)|exact SK]. }
  pose proof (is_series_unique _ _ L) as U1. pose proof (is_series_unique _ _ Rr) as U2. rewrite U1 in U2. lra.
Qed.

(** x^a (1-x)^b V(x) / a *)
Definition ubeta (x : R) : R := Rpower x a * Rpower (1 - x) b * vbeta a b x / a.
Lemma u_derive : forall x, 0 < x < 1 -> is_derive ubeta x (Rpower x (a - 1) * Rpower (1 - x) (b - 1)).
Proof.
  intros x X. unfold ubeta, Rpower. pose proof (v_derive x ltac:(lra)) as DV. pose proof (v_ode x ltac:(lra)) as O. set (D := PSeries (PS_derive v) x) in *.
  assert (P1 : exp (a * ln x) = x * exp ((a - 1) * ln x)) by (apply (rpower_minus1 x a); lra).
  assert (P2 : exp (b * ln (1 - x)) = (1 - x) * exp ((b - 1) * ln (1 - x))) by (apply (rpower_minus1 (1 - x) b); lra).
  auto_derive.
  - split; [lra|]. split; [lra|]. split; [exists D; exact DV|exact Logic.I].
  - replace (Derive (fun x0 => vbeta a b x0) x) with D by (symmetry; apply is_derive_unique; exact DV). replace (1 + - x) with (1 - x) in * by ring. rewrite P1, P2. set (p := exp ((a - 1) * ln x)). set (q := exp ((b - 1) * ln (1 - x))).
    transitivity (p * q / a * (x * (1 - x) * D + (a - (a + b) * x) * vbeta a b x)); [field; lra|]. rewrite O. field. lra.
Qed.

Lemma v_le : forall x y, 0 <= x <= y -> y < 1 -> vbeta a b x <= vbeta a b y.
Proof.
  intros x y X Y. unfold vbeta. rewrite !hyp_Series. apply Series_le.
  - intros k. pose proof (v_pos k). split; [apply Rmult_le_pos; [lra|apply pow_le; lra]|]. apply Rmult_le_compat_l; [lra|apply pow_incr; lra].
  - apply hyp_cvS; lra.
Qed.
Lemma rpow_small : forall e, 0 < e -> exists d, 0 < d /\ forall x, 0 < x <= d -> Rpower x a <= e.
Proof.
  intros e He. exists (Rpower e (/ a)). split; [apply exp_pos|]. intros x X. replace e with (Rpower (Rpower e (/ a)) a); [|rewrite Rpower_mult, Rinv_l, Rpower_1; lra].
  apply Rle_Rpower_l; lra.
Qed.
Lemma u_zero : forall e, 0 < e -> exists x0, 0 < x0 < 1 /\ forall x, 0 < x < 1 -> x <= x0 -> Rabs (ubeta x) <= e.
Proof.
  intros e He. set (M := vbeta a b (1 / 2)). assert (M1 : 1 <= M) by (apply hyp_ge1; lra).
  destruct (rpow_small (e * a / M)) as (d & Hd & H); [apply Rdiv_lt_0_compat; [apply Rmult_lt_0_compat; lra|lra]|].
  exists (Rmin d (1 / 2)). split; [split; [apply Rmin_glb_lt; lra|pose proof (Rmin_r d (1 / 2)); lra]|]. intros x X L. pose proof (Rmin_l d (1 / 2)). pose proof (Rmin_r d (1 / 2)).
  pose proof (H x ltac:(lra)) as B1. assert (B2 : Rpower (1 - x) b <= 1).
  { unfold Rpower. assert (ln (1 - x) < 0) by (rewrite <- ln_1; apply ln_increasing; lra). assert (N : b * ln (1 - x) < 0) by nra. pose proof (exp_increasing _ _ N) as Z. rewrite exp_0 in Z. lra. }
  assert (B3 : 1 <= vbeta a b x <= M) by (split; [apply hyp_ge1; lra|apply v_le; lra]). pose proof (exp_pos (a * ln x) : 0 < Rpower x a) as Q1. pose proof (exp_pos (b * ln (1 - x)) : 0 < Rpower (1 - x) b) as Q2.
  unfold ubeta. rewrite Rabs_pos_eq.
  - apply Rmult_le_reg_r with a; [lra|]. replace (Rpower x a * Rpower (1 - x) b * vbeta a b x / a * a) with (Rpower x a * (Rpower (1 - x) b * vbeta a b x)) by (field; lra).
    apply Rle_trans with (e * a / M * (1 * M)); [|right; field; lra]. apply Rmult_le_compat; [lra|apply Rmult_le_pos; lra|exact B1|]. apply Rmult_le_compat; lra.
  - apply Rmult_le_pos; [|left; apply Rinv_0_lt_compat; lra]. apply Rmult_le_pos; [apply Rmult_le_pos; lra|lra].
Qed.

(** every distribution function of the beta law is the normalised U *)
Lemma beta_cdf_u : forall C I, (forall x, 0 < x < 1 -> derivable_pt_lim I x (C * (Rpower x (a - 1) * Rpower (1 - x) (b - 1)))) ->
  (forall e, 0 < e -> exists x0, 0 < x0 < 1 /\ forall x, 0 < x < 1 -> x <= x0 -> Rabs (I x) <= e) -> forall x, 0 < x < 1 -> I x = C * ubeta x.
Proof.
  intros C I HI H0 x X.
  assert (K : forall p q, 0 < p < 1 -> 0 < q < 1 -> I p - C * ubeta p = I q - C * ubeta q).
  { apply (const_on (fun x => 0 < x < 1) (fun x => I x - C * ubeta x) interval01). intros p P. replace 0 with (C * (Rpower p (a - 1) * Rpower (1 - p) (b - 1)) - C * (Rpower p (a - 1) * Rpower (1 - p) (b - 1))) by ring.
    apply (derivable_pt_lim_minus I (fun x => C * ubeta x)); [apply HI, P|]. apply (derivable_pt_lim_scal ubeta C). apply is_derive_Reals, u_derive, P. }
  assert (Z : I x - C * ubeta x = 0); [|lra]. apply (small_zero _ (1 + Rabs C)); [pose proof (Rabs_pos C); lra|]. intros e He.
  destruct (H0 e He) as (p & P & HP). destruct (u_zero e He) as (q & Q & HQ). set (z := Rmin p q). assert (ZZ : 0 < z < 1) by (unfold z; split; [apply Rmin_glb_lt; lra|pose proof (Rmin_l p q); lra]).
  rewrite (K x z X ZZ). pose proof (HP z ZZ (Rmin_l p q)) as B1. pose proof (HQ z ZZ (Rmin_r p q)) as B2. eapply Rle_trans; [apply Rabs_triang|]. rewrite Rabs_Ropp, Rabs_mult. pose proof (Rabs_pos C). nra.
Qed.
End Integral.
