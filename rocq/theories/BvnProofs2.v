(** The bivariate normal rectangle probability is continuous up to full correlation; it meets the contract [mvn_ok]. *)
From Coq Require Import List Reals Lra Lia Psatz ZArith.
From Coquelicot Require Import Coquelicot.
From Verif Require Import Base RSum SpecSolver SpecBiv Gauss SpecBvn CdfProofs BvnProofs.
Import ListNotations.
Open Scope R_scope.

Lemma sqrt2pi_bounds : 1 <= sqrt (2 * PI) <= 3.
Proof.
  pose proof PI_RGT_0. pose proof PI_4. pose proof PI2_3_2 as H3. split.
  - rewrite <- sqrt_1. apply sqrt_le_1_alt. unfold PI2 in H3. lra.
  - replace 3 with (sqrt (3 * 3)) by (apply sqrt_square; lra). apply sqrt_le_1_alt. lra.
Qed.
Lemma gphi_le1 : forall x, gphi x <= 1.
Proof.
  intros x. unfold gphi. pose proof sqrt2pi_bounds as [A _]. apply Rmult_le_reg_r with (sqrt (2 * PI)); [lra|]. unfold Rdiv. rewrite Rmult_assoc, Rinv_l by lra.
  assert (exp (- x ^ 2 * / 2) <= exp 0) by (apply exp_le_mono; nra). rewrite exp_0 in H. lra.
Qed.
Lemma gPhi_lip : forall x y, Rabs (gPhi y - gPhi x) <= Rabs (y - x).
Proof.
  assert (W : forall x y, x <= y -> 0 <= gPhi y - gPhi x <= y - x).
  { intros x y [L| ->]; [|lra]. split; [left; pose proof (gPhi_incr x y L); lra|].
    destruct (MVT_gen gPhi x y gphi) as (z & _ & E).
    - intros t _. apply gPhi_derive.
    - intros t _. apply derivable_continuous_pt. exists (gphi t). apply is_derive_Reals. apply gPhi_derive.
    - rewrite E. pose proof (gphi_le1 z). pose proof (gphi_pos z). nra. }
  intros x y. destruct (Rle_dec x y) as [L|L].
  - pose proof (W x y L). rewrite !Rabs_pos_eq by lra. lra.
  - pose proof (W y x ltac:(lra)). rewrite !Rabs_left1 by lra. lra.
Qed.
Lemma tail_pos : forall t, 0 <= t -> 0 <= 1 - gPhi t <= exp (- t ^ 2 / 2).
Proof. intros t H. pose proof (gPhi_tail_weak t H). lra. Qed.
Lemma tail_neg : forall t, t <= 0 -> 0 <= gPhi t <= exp (- t ^ 2 / 2).
Proof.
  intros t H. pose proof (gPhi_tail_weak (- t) ltac:(lra)) as G. rewrite gPhi_opp in G.
  replace (- (- t) ^ 2 / 2) with (- t ^ 2 / 2) in G by field. lra.
Qed.

Definition clip (a b d : R) : R := Rmax a (Rmin b d).
Lemma clip_lip : forall a b x y, Rabs (clip a b y - clip a b x) <= Rabs (y - x).
Proof.
  intros a b x y. unfold clip, Rmax, Rmin. repeat destruct (Rle_dec _ _); unfold Rabs; repeat destruct (Rcase_abs _); lra.
Qed.

(** the bump exp(-t^2/2) along the line *)
Definition bump (r d x : R) : R := exp (- ((d - r * x) / sig r) ^ 2 / 2).
Lemma cont_bump : forall r d x, continuous (fun x => bump r d x) x.
Proof. intros r d x. apply (ex_derive_continuous (fun x => bump r d x)). unfold bump, Rdiv. auto_derive. exact I. Qed.
Lemma ex_bump : forall r d a b, ex_RInt (fun x => bump r d x) a b.
Proof. intros r d a b. apply (ex_RInt_continuous (V := R_CompleteNormedModule)). intros z _. apply cont_bump. Qed.
Lemma bump_int : forall r d a b, 1 / 2 <= r < 1 -> RInt (fun x => bump r d x) a b <= 6 * sig r.
Proof.
  intros r d a b H. pose proof (sig_pos r ltac:(lra)) as S. pose proof sqrt2pi_bounds as [P1 P2].
  assert (E : RInt (fun x => bump r d x) a b = sqrt (2 * PI) * (sig r / r) * gPhi (r / sig r * b + - d / sig r) - sqrt (2 * PI) * (sig r / r) * gPhi (r / sig r * a + - d / sig r)).
  { apply (is_RInt_unique (V := R_CompleteNormedModule)).
    apply (is_RInt_derive (V := R_CompleteNormedModule) (fun x => sqrt (2 * PI) * (sig r / r) * gPhi (r / sig r * x + - d / sig r)) (fun x => bump r d x) a b).
    - intros x _. replace (bump r d x) with (sqrt (2 * PI) * (sig r / r) * (r / sig r * gphi (r / sig r * x + - d / sig r))).
      + apply (is_derive_scal (fun x => gPhi (r / sig r * x + - d / sig r))). apply gPhi_lin_derive.
      + unfold gphi, bump. replace (- (r / sig r * x + - d / sig r) ^ 2 / 2) with (- ((d - r * x) / sig r) ^ 2 / 2) by (field; lra). field. lra.
    - intros x _. apply cont_bump. }
  rewrite E. pose proof (gPhi_range (r / sig r * b + - d / sig r)). pose proof (gPhi_range (r / sig r * a + - d / sig r)).
  assert (K : 0 < sig r / r <= 2 * sig r).
  { split; [apply Rdiv_lt_0_compat; lra|]. apply Rmult_le_reg_r with r; [lra|]. unfold Rdiv. rewrite Rmult_assoc, Rinv_l by lra. nra. }
  assert (sqrt (2 * PI) * (sig r / r) <= 6 * sig r) by nra. assert (0 < sqrt (2 * PI) * (sig r / r)) by nra. nra.
Qed.
Lemma ex_gphi : forall a b, ex_RInt gphi a b.
Proof. intros a b. apply (ex_RInt_continuous (V := R_CompleteNormedModule)). intros z _. apply cont_gphi. Qed.

Lemma cJ_bound : forall r d a b, 1 / 2 <= r < 1 -> a <= b -> Rabs (cJ r d a b - (gPhi (clip a b d) - gPhi a)) <= 6 * sig r + 2 * Rabs d * (1 - r).
Proof.
  intros r d a b H L. pose proof (sig_pos r ltac:(lra)) as S. set (m := clip a b (d / r)).
  assert (M : a <= m <= b) by (unfold m, clip, Rmax, Rmin; repeat destruct (Rle_dec _ _); lra).
  assert (ML : forall x, a < x < m -> 0 <= (d - r * x) / sig r).
  { intros x X. assert (x <= d / r) by (revert X; unfold m, clip, Rmax, Rmin; repeat destruct (Rle_dec _ _); lra).
    apply Rmult_le_pos; [|left; apply Rinv_0_lt_compat; exact S]. apply Rmult_le_compat_l with (r := r) in H0; [|lra].
    replace (r * (d / r)) with d in H0 by (field; lra). lra. }
  assert (MR : forall x, m < x < b -> (d - r * x) / sig r <= 0).
  { intros x X. assert (d / r <= x) by (revert X; unfold m, clip, Rmax, Rmin; repeat destruct (Rle_dec _ _); lra).
    apply Rmult_le_compat_l with (r := r) in H0; [|lra]. replace (r * (d / r)) with d in H0 by (field; lra).
    assert (0 < / sig r) by (apply Rinv_0_lt_compat; exact S). unfold Rdiv. nra. }
  assert (E : cJ r d a b = RInt (fun x => cH r d x) a m + RInt (fun x => cH r d x) m b).
  { symmetry. apply (RInt_Chasles (V := R_CompleteNormedModule) (fun x => cH r d x) a m b); apply ex_cH. }
  assert (A1 : gPhi m - gPhi a - RInt (fun x => bump r d x) a m <= RInt (fun x => cH r d x) a m <= gPhi m - gPhi a).
  { rewrite <- gphi_int. split.
    - replace (RInt gphi a m - RInt (fun x => bump r d x) a m) with (RInt (fun x => minus (gphi x) (bump r d x)) a m)
        by (exact (RInt_minus (V := R_CompleteNormedModule) gphi (fun x => bump r d x) a m (ex_gphi a m) (ex_bump r d a m))).
      apply RInt_le; [lra|apply (ex_RInt_minus (V := R_CompleteNormedModule)); [apply ex_gphi|apply ex_bump]|apply ex_cH|].
      intros x X. unfold cH, bump. pose proof (tail_pos _ (ML x X)) as T. pose proof (gphi_le1 x). pose proof (gphi_pos x).
      unfold minus, plus, opp; simpl. simpl in T. nra.
    - apply RInt_le; [lra|apply ex_cH|apply ex_gphi|]. intros x X. unfold cH. pose proof (gPhi_range ((d - r * x) / sig r)). pose proof (gphi_pos x). nra. }
  assert (A2 : 0 <= RInt (fun x => cH r d x) m b <= RInt (fun x => bump r d x) m b).
  { split.
    - apply RInt_ge_0; [lra|apply ex_cH|]. intros x X. unfold cH. pose proof (gPhi_range ((d - r * x) / sig r)). pose proof (gphi_pos x). nra.
    - apply RInt_le; [lra|apply ex_cH|apply ex_bump|]. intros x X. unfold cH, bump. pose proof (tail_neg _ (MR x X)) as T. pose proof (gphi_le1 x). pose proof (gphi_pos x). simpl in *. nra. }
  assert (B : RInt (fun x => bump r d x) a m + RInt (fun x => bump r d x) m b <= 6 * sig r).
  { eapply Rle_trans; [|apply (bump_int r d a b H)]. right. apply (RInt_Chasles (V := R_CompleteNormedModule) (fun x => bump r d x) a m b); apply ex_bump. }
  assert (B0 : 0 <= RInt (fun x => bump r d x) a m) by (apply RInt_ge_0; [lra|apply ex_bump|intros x _; left; apply exp_pos]).
  assert (C : Rabs (gPhi m - gPhi (clip a b d)) <= 2 * Rabs d * (1 - r)).
  { eapply Rle_trans; [apply gPhi_lip|]. unfold m. eapply Rle_trans; [apply clip_lip|].
    replace (d / r - d) with (d * ((1 - r) / r)) by (field; lra). rewrite Rabs_mult. rewrite (Rabs_pos_eq ((1 - r) / r)).
    - replace (2 * Rabs d * (1 - r)) with (Rabs d * (2 * (1 - r))) by ring. apply Rmult_le_compat_l; [apply Rabs_pos|].
      apply Rmult_le_reg_r with r; [lra|]. unfold Rdiv. rewrite Rmult_assoc, Rinv_l by lra. nra.
    - apply Rmult_le_pos; [lra|left; apply Rinv_0_lt_compat; lra]. }
  rewrite E. apply Rabs_le. apply Rabs_le_between in C. lra.
Qed.

Lemma prob_1 : forall a c b d, a <= b -> c <= d -> bvn_prob 1 a c b d = gPhi (clip a b d) - gPhi (clip a b c).
Proof.
  intros a c b d H1 H2. unfold bvn_prob. destruct (Rlt_dec (1 ^ 2) 1) as [L|_]; [exfalso; lra|]. destruct (Req_EM_T 1 1) as [_|N]; [|exfalso; apply N; reflexivity].
  unfold overlap_mass. destruct (Rlt_dec (Rmax a c) (Rmin b d)) as [L|L].
  - rewrite normal_mass_Phi. f_equal; [|f_equal]; f_equal; revert L; unfold clip, Rmax, Rmin; repeat destruct (Rle_dec _ _); lra.
  - assert (E : clip a b d = clip a b c) by (revert L; unfold clip, Rmax, Rmin; repeat destruct (Rle_dec _ _); lra). rewrite E. ring.
Qed.

Lemma prob_bound_1 : forall r a c b d, 1 / 2 <= r < 1 -> a <= b -> c <= d ->
  Rabs (bvn_prob r a c b d - bvn_prob 1 a c b d) <= 12 * sig r + 2 * (Rabs c + Rabs d) * (1 - r).
Proof.
  intros r a c b d H H1 H2. rewrite prob_cJ by lra. rewrite (prob_1 a c b d H1 H2).
  pose proof (cJ_bound r d a b H H1) as A. pose proof (cJ_bound r c a b H H1) as B. apply Rabs_le_between in A. apply Rabs_le_between in B. apply Rabs_le. lra.
Qed.

Lemma prob_cont : forall a c b d, a <= b -> c <= d -> continuous_on (fun r => bvn_prob r a c b d) 0 1.
Proof.
  intros a c b d H1 H2 x X eps He. destruct (Req_dec x 1) as [-> |N].
  - set (K := 2 * (Rabs c + Rabs d)). assert (K0 : 0 <= K) by (unfold K; pose proof (Rabs_pos c); pose proof (Rabs_pos d); lra).
    set (d1 := eps / (2 * (K + 1))). set (d2 := (eps / 25) ^ 2 / 2).
    assert (D1 : 0 < d1) by (apply Rdiv_lt_0_compat; lra). assert (D2 : 0 < d2) by (unfold d2; assert (0 < eps / 25) by lra; nra).
    exists (Rmin (1 / 2) (Rmin d1 d2)). split; [repeat apply Rmin_pos; lra|]. intros y Y D.
    pose proof (Rmin_l (1 / 2) (Rmin d1 d2)). pose proof (Rmin_r (1 / 2) (Rmin d1 d2)). pose proof (Rmin_l d1 d2). pose proof (Rmin_r d1 d2).
    destruct (Req_dec y 1) as [-> |NY]; [rewrite Rminus_diag_eq, Rabs_R0 by reflexivity; exact He|].
    rewrite Rabs_left1 in D by lra. eapply Rle_lt_trans; [apply (prob_bound_1 y a c b d); lra|]. fold K.
    assert (S : sig y < eps / 25).
    { unfold sig. apply Rlt_le_trans with (sqrt ((eps / 25) ^ 2)).
      - apply sqrt_lt_1_alt. split; [nra|]. assert (1 - y ^ 2 <= 2 * (1 - y)) by nra. unfold d2 in *. lra.
      - right. rewrite <- Rsqr_pow2. apply sqrt_Rsqr. lra. }
    assert (Q : K * (1 - y) <= eps / 2).
    { apply Rle_trans with ((K + 1) * d1); [apply Rmult_le_compat; lra|]. right. unfold d1. field. lra. }
    lra.
  - assert (H : -1 < x < 1) by lra. pose proof (prob_derive x a c b d H) as P.
    assert (C : continuous (fun r => bvn_prob r a c b d) x) by (apply (ex_derive_continuous (fun r => bvn_prob r a c b d)); eexists; exact P).
    assert (Q : locally (bvn_prob x a c b d) (fun v => Rabs (v - bvn_prob x a c b d) < eps)) by (exists (mkposreal eps He); intros v V; exact V).
    destruct (C _ Q) as [e E]. exists e. split; [apply cond_pos|]. intros y _ D. apply (E y). exact D.
Qed.

Theorem bvn_mvn_ok : mvn_ok bvn_prob.
Proof.
  constructor.
  - intros rho lx ly ux uy. apply prob_reflect.
  - intros rho lx ly ux uy. apply prob_swap.
  - intros lx ly ux uy H1 H2. rewrite prob_0. pose proof (gPhi_incr lx ux H1). pose proof (gPhi_incr ly uy H2). nra.
  - intros lx ly ux uy H1 H2 H3. rewrite prob_1 by lra. assert (E : clip lx ux uy = clip lx ux ly) by (unfold clip, Rmax, Rmin; repeat destruct (Rle_dec _ _); lra). rewrite E. ring.
Qed.

(** sums of continuous functions *)
Lemma con_const : forall k, continuous_on (fun _ => k) 0 1.
Proof. intros k x _ eps He. exists 1. split; [lra|]. intros y _ _. rewrite Rminus_diag_eq, Rabs_R0 by reflexivity. exact He. Qed.
Lemma con_plus : forall f g, continuous_on f 0 1 -> continuous_on g 0 1 -> continuous_on (fun x => f x + g x) 0 1.
Proof.
  intros f g F G x X eps He. destruct (F x X (eps / 2) ltac:(lra)) as (d1 & D1 & A). destruct (G x X (eps / 2) ltac:(lra)) as (d2 & D2 & B).
  exists (Rmin d1 d2). split; [apply Rmin_pos; lra|]. intros y Y D. pose proof (Rmin_l d1 d2). pose proof (Rmin_r d1 d2).
  pose proof (A y Y ltac:(lra)) as A'. pose proof (B y Y ltac:(lra)) as B'. apply Rabs_def2 in A'. apply Rabs_def2 in B'. apply Rabs_def1; lra.
Qed.
Lemma con_sqdiv : forall f k q, continuous_on f 0 1 -> continuous_on (fun x => (f x - k) ^ 2 / q) 0 1.
Proof.
  intros f k q F x X eps He.
  assert (C : continuous (fun v => (v - k) ^ 2 / q) (f x)) by (apply (ex_derive_continuous (fun v => (v - k) ^ 2 / q)); unfold Rdiv; auto_derive; exact I).
  assert (Q : locally ((f x - k) ^ 2 / q) (fun v => Rabs (v - (f x - k) ^ 2 / q) < eps)) by (exists (mkposreal eps He); intros v V; exact V).
  destruct (C _ Q) as [e E]. destruct (F x X e (cond_pos e)) as (d & D & B). exists d. split; [exact D|]. intros y Y W. apply (E (f y)). apply (B y Y W).
Qed.
Lemma con_lsum : forall (A : Type) (f : A -> R -> R) l, (forall c, In c l -> continuous_on (f c) 0 1) -> continuous_on (fun x => lsum (fun c => f c x) l) 0 1.
Proof.
  intros A f l. induction l as [|c l IH]; intros H.
  - apply (con_const 0).
  - apply (con_plus (f c) (fun x => lsum (fun c => f c x) l)); [apply H; left; reflexivity|apply IH; intros; apply H; right; assumption].
Qed.

(** non-decreasing edges *)
Definition rising_edges (s : list R) : Prop := forall k, (S k < length s)%nat -> nth k s 0 <= nth (S k) s 0.
Lemma bvn_chi2_cont : forall sx sy, rising_edges sx -> rising_edges sy -> continuous_on (binned_chi2 bvn_prob sx sy) 0 1.
Proof.
  intros sx sy Hx Hy. unfold binned_chi2.
  apply (con_lsum _ (fun c rho => let p0 := grid_prob bvn_prob 0 sx sy c in if Req_EM_T p0 0 then 0 else (grid_prob bvn_prob rho sx sy c - p0) ^ 2 / p0)).
  intros [i j] Hc. unfold all_cells in Hc. apply in_prod_iff in Hc. destruct Hc as [I J]. apply in_seq in I. apply in_seq in J. cbn zeta.
  destruct (Req_EM_T _ 0) as [E|N]; [apply con_const|]. apply con_sqdiv. unfold grid_prob. apply prob_cont; simpl; [apply Hx; lia|apply Hy; lia].
Qed.
Lemma unit_edges_length : forall n, length (unit_edges n) = (n + 1)%nat.
Proof. intros n. unfold unit_edges. rewrite map_length, seq_length. reflexivity. Qed.
Lemma unit_edges_nth : forall n k, (k <= n)%nat -> nth k (unit_edges n) 0 = -5 + INR k * (10 / INR n).
Proof.
  intros n k H. unfold unit_edges. rewrite (nth_indep _ 0 (-5 + INR 0 * (10 / INR n))) by (rewrite map_length, seq_length; lia).
  rewrite (map_nth (fun i => -5 + INR i * (10 / INR n)) (seq 0 (n + 1)) 0%nat). rewrite seq_nth by lia. reflexivity.
Qed.
Lemma unit_edges_rising : forall n, rising_edges (unit_edges n).
Proof.
  intros n k H. rewrite unit_edges_length in H. rewrite !unit_edges_nth by lia. rewrite S_INR.
  assert (0 < INR n) by (apply lt_0_INR; lia). assert (0 < 10 / INR n) by (apply Rdiv_lt_0_compat; lra). lra.
Qed.
