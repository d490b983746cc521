(** A grid with two bins on one axis (0/1 variable): the binned chi2 of the bivariate normal grows strictly with the correlation. *)
From Coq Require Import List Reals Lra Lia Psatz ZArith.
From Coquelicot Require Import Coquelicot.
From Verif Require Import Base RSum SpecSolver SpecBiv Gauss SpecBvn CdfProofs BvnProofs BvnProofs2 BvnProofs3.
Import ListNotations.
Open Scope R_scope.

Lemma gphi_abs_le : forall x y, x ^ 2 <= y ^ 2 -> gphi y <= gphi x.
Proof.
  intros x y H. unfold gphi. apply Rmult_le_compat_r; [left; apply Rinv_0_lt_compat; apply sqrt2pi_pos|]. apply exp_le_mono. lra.
Qed.
Lemma mono_of_derive : forall (f f' : R -> R) a b, a <= b -> (forall x, a <= x <= b -> is_derive f x (f' x)) -> (forall x, a <= x <= b -> 0 <= f' x) -> f a <= f b.
Proof.
  intros f f' a b L D P. destruct (MVT_gen f a b f') as (z & Z & E).
  - intros t T. rewrite Rmin_left, Rmax_right in T by lra. apply D. lra.
  - intros t T. rewrite Rmin_left, Rmax_right in T by lra. apply derivable_continuous_pt. exists (f' t). apply is_derive_Reals. apply D. lra.
  - rewrite Rmin_left, Rmax_right in Z by lra. assert (0 <= f' z) by (apply P; lra). nra.
Qed.
Lemma smono_of_derive : forall (f f' : R -> R) a b, a < b -> (forall x, a <= x <= b -> is_derive f x (f' x)) -> (forall x, a <= x <= b -> 0 < f' x) -> f a < f b.
Proof.
  intros f f' a b L D P. destruct (MVT_gen f a b f') as (z & Z & E).
  - intros t T. rewrite Rmin_left, Rmax_right in T by lra. apply D. lra.
  - intros t T. rewrite Rmin_left, Rmax_right in T by lra. apply derivable_continuous_pt. exists (f' t). apply is_derive_Reals. apply D. lra.
  - rewrite Rmin_left, Rmax_right in Z by lra. assert (0 < f' z) by (apply P; lra). nra.
Qed.

(** mass of a window of length L starting at A *)
Definition win (L A : R) : R := gPhi (A + L) - gPhi A.
Lemma win_decr : forall L A B, 0 <= L -> - L / 2 <= A -> A <= B -> win L B <= win L A.
Proof.
  intros L A B HL H1 H2.
  assert (M : - win L A <= - win L B); [|lra].
  apply (mono_of_derive (fun A => - win L A) (fun A => gphi A - gphi (A + L))); [exact H2| |].
  - intros x _. unfold win.
    assert (D : is_derive (fun A => gPhi (A + L)) x (gphi (x + L))).
    { pose proof (gPhi_lin_derive 1 L x) as D. rewrite !Rmult_1_l in D. eapply is_derive_ext; [|exact D]. intros t. cbn beta. f_equal. ring. }
    replace (gphi x - gphi (x + L)) with (opp (minus (gphi (x + L)) (gphi x))) by (unfold opp, minus, plus; simpl; unfold opp; simpl; ring).
    apply (is_derive_opp (fun A => gPhi (A + L) - gPhi A)). apply (is_derive_minus (fun A => gPhi (A + L)) gPhi); [exact D|apply gPhi_derive].
  - intros x X. pose proof (gphi_abs_le x (x + L) ltac:(nra)). lra.
Qed.
Lemma win_sym : forall L A, win L (- L - A) = win L A.
Proof.
  intros L A. unfold win. replace (- L - A + L) with (- A) by ring. replace (- L - A) with (- (A + L)) by ring. rewrite !gPhi_opp. ring.
Qed.

(** probability that 0 < X < 5 given Y = y *)
Definition psi (r y : R) : R := win (5 / sig r) (- (r * y) / sig r).
Lemma psi_incr : forall r y z, 0 < r < 1 -> y <= z -> r * z <= 5 / 2 -> psi r y <= psi r z.
Proof.
  intros r y z H L Z. pose proof (sig_pos r ltac:(lra)) as S. assert (I : 0 < / sig r) by (apply Rinv_0_lt_compat; exact S). unfold psi, Rdiv. apply win_decr.
  - nra.
  - replace (- (5 * / sig r) / 2) with (- (5 / 2) * / sig r) by (field; lra). apply Rmult_le_compat_r; lra.
  - apply Rmult_le_compat_r; [lra|nra].
Qed.
Lemma psi_sym : forall r y z, 0 < r < 1 -> r * (y + z) = 5 -> psi r y = psi r z.
Proof.
  intros r y z H E. pose proof (sig_pos r ltac:(lra)) as S. unfold psi. rewrite <- (win_sym _ (- (r * y) / sig r)). f_equal.
  replace (r * z) with (5 - r * y) by lra. field. lra.
Qed.
Lemma psi_decr : forall r y z, 0 < r < 1 -> y <= z -> 5 / 2 <= r * y -> psi r z <= psi r y.
Proof.
  intros r y z H L Y. rewrite (psi_sym r z (5 / r - z) H), (psi_sym r y (5 / r - y) H) by (field; lra). apply psi_incr; [exact H|lra|].
  replace (r * (5 / r - y)) with (5 - r * y) by (field; lra). lra.
Qed.
Lemma psi_min : forall r y1 y2 y, 0 < r < 1 -> y1 <= y <= y2 -> Rmin (psi r y1) (psi r y2) <= psi r y.
Proof.
  intros r y1 y2 y H Y. destruct (Rle_dec (r * y) (5 / 2)) as [L|L].
  - eapply Rle_trans; [apply Rmin_l|]. apply psi_incr; [exact H|lra|exact L].
  - eapply Rle_trans; [apply Rmin_r|]. apply psi_decr; [exact H|lra|lra].
Qed.

Definition alpha : R := gPhi 5 - 1 / 2.
Lemma alpha_pos : 0 < alpha.
Proof. unfold alpha. pose proof (gPhi_incr 0 5 ltac:(lra)). rewrite gPhi_0 in *. lra. Qed.
Lemma alpha_half : alpha < 1 / 2.
Proof. unfold alpha. pose proof (gPhi_range 5). lra. Qed.

Lemma psi_alpha : forall r y, 0 < r < 1 -> 0 <= y <= 5 -> alpha < psi r y.
Proof.
  intros r y H Y. pose proof (sig_pos r ltac:(lra)) as S. pose proof (sig_sq r ltac:(lra)) as Q. assert (S1 : sig r < 1) by nra.
  assert (I : 0 < / sig r) by (apply Rinv_0_lt_compat; exact S). assert (I1 : 1 < / sig r) by (rewrite <- Rinv_1; apply Rinv_lt_contravar; lra).
  set (a := (5 - r * y) * / sig r). set (b := r * y * / sig r). assert (A : 0 <= a) by (unfold a; apply Rmult_le_pos; nra). assert (B : 0 <= b) by (unfold b; apply Rmult_le_pos; nra).
  assert (W : win b a <= win b 0) by (apply win_decr; lra). unfold win in W. rewrite Rplus_0_l, gPhi_0 in W.
  assert (G : gPhi 5 < gPhi (a + b)) by (apply gPhi_incr; unfold a, b; nra).
  unfold psi, win, alpha. replace (- (r * y) / sig r + 5 / sig r) with a by (unfold a; field; lra). replace (- (r * y) / sig r) with (- b) by (unfold b; field; lra). rewrite gPhi_opp. lra.
Qed.
Lemma psi_le1 : forall r y, psi r y <= 1.
Proof. intros r y. unfold psi, win. pose proof (gPhi_range (- (r * y) / sig r + 5 / sig r)). pose proof (gPhi_range (- (r * y) / sig r)). lra. Qed.

(** the probability of 0 < X < 5, y1 < Y < y2 *)
Definition U (r y1 y2 : R) : R := bvn_prob r 0 y1 5 y2.
Definition qm (y1 y2 : R) : R := gPhi y2 - gPhi y1.
Lemma qm_pos : forall y1 y2, y1 < y2 -> 0 < qm y1 y2.
Proof. intros y1 y2 H. unfold qm. pose proof (gPhi_incr _ _ H). lra. Qed.
Lemma cont_psi : forall r y, 0 < r < 1 -> continuous (fun y => gphi y * psi r y) y.
Proof.
  intros r y H. pose proof (sig_pos r ltac:(lra)) as S.
  apply (continuous_ext (fun y => cH r 5 y - cH r 0 y)).
  - intros t. change (cH r 5 t - cH r 0 t = gphi t * psi r t). unfold cH, psi, win. replace (- (r * t) / sig r + 5 / sig r) with ((5 - r * t) / sig r) by (field; lra). replace ((0 - r * t) / sig r) with (- (r * t) / sig r) by (field; lra). ring.
  - apply (continuous_minus (V := R_NormedModule) (fun y => cH r 5 y) (fun y => cH r 0 y)); apply cont_cH_x.
Qed.
Lemma ex_psi : forall r a b, 0 < r < 1 -> ex_RInt (fun y => gphi y * psi r y) a b.
Proof. intros r a b H. apply (ex_RInt_continuous (V := R_CompleteNormedModule)). intros z _. apply cont_psi. exact H. Qed.
Lemma U_int : forall r y1 y2, 0 < r < 1 -> U r y1 y2 = RInt (fun y => gphi y * psi r y) y1 y2.
Proof.
  intros r y1 y2 H. pose proof (sig_pos r ltac:(lra)) as S. unfold U. rewrite prob_swap, prob_cJ by lra. unfold cJ.
  etransitivity; [symmetry; exact (RInt_minus (V := R_CompleteNormedModule) (fun x => cH r 5 x) (fun x => cH r 0 x) y1 y2 (ex_cH r 5 y1 y2) (ex_cH r 0 y1 y2))|].
  apply RInt_ext. intros t _. unfold minus, plus, opp; simpl. unfold cH, psi, win.
  replace (- (r * t) / sig r + 5 / sig r) with ((5 - r * t) / sig r) by (field; lra). replace ((0 - r * t) / sig r) with (- (r * t) / sig r) by (field; lra). ring.
Qed.
Lemma U_refl_int : forall r y1 y2, 0 < r < 1 -> U r (- y2) (- y1) = RInt (fun y => gphi y * psi r (- y)) y1 y2.
Proof.
  intros r y1 y2 H. rewrite U_int by exact H.
  pose proof (RInt_comp_lin (V := R_CompleteNormedModule) (fun y => gphi y * psi r y) (-1) 0 y1 y2) as E.
  replace (-1 * y1 + 0) with (- y1) in E by ring. replace (-1 * y2 + 0) with (- y2) in E by ring.
  rewrite <- (opp_RInt_swap (V := R_CompleteNormedModule)) by (apply ex_psi; exact H). rewrite <- E by (apply ex_psi; exact H).
  rewrite <- (RInt_opp (V := R_CompleteNormedModule)).
  - apply RInt_ext. intros t _. unfold opp, scal; simpl. unfold mult; simpl. replace (-1 * t + 0) with (- t) by ring.
    assert (G : gphi (- t) = gphi t) by (unfold gphi; do 2 f_equal; field). rewrite G. ring.
  - apply (ex_RInt_comp_lin (V := R_NormedModule) (fun y => gphi y * psi r y) (-1) 0 y1 y2). apply ex_psi. exact H.
Qed.
Lemma ex_psi_opp : forall r a b, 0 < r < 1 -> ex_RInt (fun y => gphi y * psi r (- y)) a b.
Proof.
  intros r a b H. apply (ex_RInt_continuous (V := R_CompleteNormedModule)). intros z _.
  apply (continuous_ext (fun y => (fun y => gphi y * psi r y) (- y))).
  - intros t. change (gphi (- t) * psi r (- t) = gphi t * psi r (- t)). f_equal. unfold gphi. do 2 f_equal. field.
  - apply (continuous_comp (fun y => - y) (fun y => gphi y * psi r y)); [apply (continuous_opp (V := R_NormedModule)); apply continuous_id|apply cont_psi; exact H].
Qed.
Lemma mean_lower : forall r y1 y2 m, 0 < r < 1 -> y1 <= y2 -> (forall y, y1 <= y <= y2 -> m <= psi r y) -> m * qm y1 y2 <= U r y1 y2.
Proof.
  intros r y1 y2 m H L P. rewrite U_int by exact H. unfold qm. rewrite <- gphi_int.
  replace (m * RInt gphi y1 y2) with (RInt (fun y => scal m (gphi y)) y1 y2) by (apply (RInt_scal (V := R_CompleteNormedModule)); apply ex_gphi).
  apply RInt_le; [exact L|apply (ex_RInt_scal (V := R_NormedModule)); apply ex_gphi|apply ex_psi; exact H|].
  intros y Y. unfold scal; simpl; unfold mult; simpl. pose proof (P y ltac:(lra)). pose proof (gphi_pos y). nra.
Qed.
Lemma mean_upper : forall r y1 y2 m, 0 < r < 1 -> y1 <= y2 -> (forall y, y1 <= y <= y2 -> psi r y <= m) -> U r y1 y2 <= m * qm y1 y2.
Proof.
  intros r y1 y2 m H L P. rewrite U_int by exact H. unfold qm. rewrite <- gphi_int.
  replace (m * RInt gphi y1 y2) with (RInt (fun y => scal m (gphi y)) y1 y2) by (apply (RInt_scal (V := R_CompleteNormedModule)); apply ex_gphi).
  apply RInt_le; [exact L|apply ex_psi; exact H|apply (ex_RInt_scal (V := R_NormedModule)); apply ex_gphi|].
  intros y Y. unfold scal; simpl; unfold mult; simpl. pose proof (P y ltac:(lra)). pose proof (gphi_pos y). nra.
Qed.
(** strict lower bound alpha *)
Lemma psi_infimum : forall r y1 y2, 0 < r < 1 -> 0 <= y1 -> y1 <= y2 -> y2 <= 5 -> alpha * qm y1 y2 < U r y1 y2 \/ y1 = y2.
Proof.
  intros r y1 y2 H A B C. destruct B as [B|B]; [left|right; exact B].
  pose proof (mean_lower r y1 y2 (Rmin (psi r y1) (psi r y2)) H ltac:(lra) (fun y Y => psi_min r y1 y2 y H Y)) as M.
  pose proof (qm_pos y1 y2 B). assert (alpha < Rmin (psi r y1) (psi r y2)) by (apply Rmin_glb_lt; apply psi_alpha; lra). nra.
Qed.

(** the derivative of U in the correlation *)
Definition w (r y : R) : R := bvn_density r 0 y - bvn_density r 5 y.
Lemma U_derive : forall r y1 y2, -1 < r < 1 -> is_derive (fun r => U r y1 y2) r (w r y1 - w r y2).
Proof.
  intros r y1 y2 H. unfold U. replace (w r y1 - w r y2) with (corner r 0 y1 5 y2) by (unfold corner, w; ring). apply prob_derive. exact H.
Qed.
Lemma U_zero : forall y1 y2, U 0 y1 y2 = alpha * qm y1 y2.
Proof. intros y1 y2. unfold U. rewrite prob_0, gPhi_0. reflexivity. Qed.

Lemma dens_derive_y : forall r x y, -1 < r < 1 -> is_derive (fun y => bvn_density r x y) y (bvn_density r x y * ((r * x - y) / (1 - r ^ 2))).
Proof.
  intros r x y H. apply (is_derive_ext (fun y => bvn_density r y x)); [intros; apply dens_sym|]. rewrite (dens_sym r x y). apply dens_derive_x. exact H.
Qed.
Lemma dens_derive_yo : forall r x y, -1 < r < 1 -> is_derive (fun y => bvn_density r x (- y)) y (bvn_density r x (- y) * ((- (r * x) - y) / (1 - r ^ 2))).
Proof.
  intros r x y H. apply (is_derive_ext (fun y => bvn_density r (- x) y)).
  - intros t. rewrite <- (dens_opp r x (- t)), Ropp_involutive. reflexivity.
  - rewrite <- (dens_opp r x (- y)), Ropp_involutive. replace (- (r * x)) with (r * - x) by ring. apply dens_derive_y. exact H.
Qed.
Lemma w_derive : forall r y, -1 < r < 1 -> is_derive (w r) y (bvn_density r 0 y * ((r * 0 - y) / (1 - r ^ 2)) - bvn_density r 5 y * ((r * 5 - y) / (1 - r ^ 2))).
Proof.
  intros r y H. unfold w. apply (is_derive_minus (V := R_NormedModule) (fun y => bvn_density r 0 y) (fun y => bvn_density r 5 y)); apply dens_derive_y; exact H.
Qed.
Lemma wo_derive : forall r y, -1 < r < 1 -> is_derive (fun y => w r (- y)) y (bvn_density r 0 (- y) * ((- (r * 0) - y) / (1 - r ^ 2)) - bvn_density r 5 (- y) * ((- (r * 5) - y) / (1 - r ^ 2))).
Proof.
  intros r y H. unfold w. apply (is_derive_minus (V := R_NormedModule) (fun y => bvn_density r 0 (- y)) (fun y => bvn_density r 5 (- y))); apply dens_derive_yo; exact H.
Qed.
Lemma d5_d0 : forall r y, 0 < r < 1 -> bvn_density r 5 y = bvn_density r 0 y * exp ((10 * r * y - 25) / (2 * (1 - r ^ 2))).
Proof.
  intros r y H. assert (Q : 0 < 1 - r ^ 2) by nra. unfold bvn_density.
  replace (- (5 ^ 2 - 2 * r * 5 * y + y ^ 2) / (2 * (1 - r ^ 2))) with (- (0 ^ 2 - 2 * r * 0 * y + y ^ 2) / (2 * (1 - r ^ 2)) + (10 * r * y - 25) / (2 * (1 - r ^ 2))) by (field; lra).
  rewrite exp_plus. unfold Rdiv. ring.
Qed.
Lemma d0_even : forall r y, bvn_density r 0 (- y) = bvn_density r 0 y.
Proof. intros r y. unfold bvn_density. do 3 f_equal. ring. Qed.
Lemma d5_le_d0 : forall r y, 0 < r < 1 -> r * y <= 5 / 2 -> bvn_density r 5 y <= bvn_density r 0 y.
Proof.
  intros r y H L. rewrite d5_d0 by exact H. pose proof (dens_pos r 0 y ltac:(lra)) as P. assert (Q : 0 < 1 - r ^ 2) by nra.
  assert (E : exp ((10 * r * y - 25) / (2 * (1 - r ^ 2))) <= 1).
  { rewrite <- exp_0 at 2. apply exp_le_mono. unfold Rdiv. assert (0 < / (2 * (1 - r ^ 2))) by (apply Rinv_0_lt_compat; lra). nra. }
  nra.
Qed.
Lemma w_nonneg : forall r y, 0 < r < 1 -> r * y <= 5 / 2 -> 0 <= w r y.
Proof. intros r y H L. unfold w. pose proof (d5_le_d0 r y H L). lra. Qed.
Lemma w_neg : forall r y, 0 < r < 1 -> 5 / 2 < r * y -> w r y < 0.
Proof.
  intros r y H L. unfold w. rewrite d5_d0 by exact H. pose proof (dens_pos r 0 y ltac:(lra)) as P. assert (Q : 0 < 1 - r ^ 2) by nra.
  assert (E : 1 < exp ((10 * r * y - 25) / (2 * (1 - r ^ 2)))).
  { rewrite <- exp_0 at 1. apply exp_increasing. apply Rdiv_lt_0_compat; lra. }
  nra.
Qed.
Lemma w_decr : forall r y z, 0 < r < 1 -> 0 <= y -> y < z -> r * z <= 5 / 2 -> w r z < w r y.
Proof.
  intros r y z H Y L Z. assert (Q : 0 < 1 - r ^ 2) by nra. assert (M : - w r y < - w r z); [|lra].
  apply (smono_of_derive (fun y => - w r y) (fun y => - (bvn_density r 0 y * ((r * 0 - y) / (1 - r ^ 2)) - bvn_density r 5 y * ((r * 5 - y) / (1 - r ^ 2))))); [exact L| |].
  - intros t _. apply (is_derive_opp (w r)). apply w_derive. lra.
  - intros t T. assert (RT : r * t <= 5 / 2) by nra. pose proof (d5_le_d0 r t H RT) as D. pose proof (dens_pos r 5 t ltac:(lra)) as D5.
    replace (- (bvn_density r 0 t * ((r * 0 - t) / (1 - r ^ 2)) - bvn_density r 5 t * ((r * 5 - t) / (1 - r ^ 2))))
      with ((t * (bvn_density r 0 t - bvn_density r 5 t) + 5 * r * bvn_density r 5 t) / (1 - r ^ 2)) by (field; lra).
    apply Rdiv_lt_0_compat; [|exact Q]. assert (0 <= t * (bvn_density r 0 t - bvn_density r 5 t)) by (apply Rmult_le_pos; lra). assert (0 < r * bvn_density r 5 t) by (apply Rmult_lt_0_compat; lra). lra.
Qed.
Lemma w_mirror : forall r y z, 0 < r < 1 -> y <= z -> r * (y + z) = 5 -> - w r z <= w r y.
Proof.
  intros r y z H L E. assert (Q : 0 < 1 - r ^ 2) by nra. unfold w. rewrite !(d5_d0 r) by exact H.
  set (b := (10 * r * z - 25) / (2 * (1 - r ^ 2))). replace ((10 * r * y - 25) / (2 * (1 - r ^ 2))) with (- b) by (unfold b; replace (r * y) with (5 - r * z) by lra; replace (10 * r * y) with (50 - 10 * r * z) by lra; field; lra).
  assert (B : 0 <= b) by (unfold b; apply Rmult_le_pos; [nra|left; apply Rinv_0_lt_compat; lra]).
  assert (M : bvn_density r 0 z * exp b <= bvn_density r 0 y).
  { unfold b. rewrite <- d5_d0 by exact H. unfold bvn_density. fold (sig r). apply Rmult_le_compat_r.
    - left. apply Rinv_0_lt_compat. pose proof (sig_pos r ltac:(lra)). pose proof PI_RGT_0. nra.
    - apply exp_le_mono. unfold Rdiv. apply Rmult_le_compat_r; [left; apply Rinv_0_lt_compat; lra|].
      assert (X : 5 * r * (z - y) <= (z + y) * (z - y)).
      { apply Rmult_le_compat_r; [lra|]. assert (5 <= z + y) by nra. nra. }
      nra. }
  assert (EB : exp b * exp (- b) = 1) by (rewrite <- exp_plus; replace (b + - b) with 0 by ring; apply exp_0).
  pose proof (exp_pos b). pose proof (exp_pos (- b)). pose proof (dens_pos r 0 y ltac:(lra)). pose proof (dens_pos r 0 z ltac:(lra)).
  assert (E1 : 1 <= exp b) by (rewrite <- exp_0; apply exp_le_mono; exact B). assert (E2 : exp (- b) <= 1) by (rewrite <- exp_0; apply exp_le_mono; lra).
  assert (X : bvn_density r 0 z * exp b * (1 - exp (- b)) <= bvn_density r 0 y * (1 - exp (- b))) by (apply Rmult_le_compat_r; lra).
  replace (bvn_density r 0 z * exp b * (1 - exp (- b))) with (bvn_density r 0 z * exp b - bvn_density r 0 z * (exp b * exp (- b))) in X by ring. rewrite EB in X. lra.
Qed.

(** a bin y1 < y2 on the positive side and its mirror image, low bins: y2 <= 5/2 r *)
Section Pair.
  Variables r y1 y2 : R.
  Hypothesis Hr : 0 < r < 1.
  Hypothesis H0 : 0 <= y1.
  Hypothesis H1 : y1 <= y2.
  Let a := U r y1 y2 - alpha * qm y1 y2.
  Let b := alpha * qm y1 y2 - U r (- y2) (- y1).
  Let a' := w r y1 - w r y2.
  Let b' := w r (- y1) - w r (- y2).

  Lemma pair_low : y2 <= 5 / 2 * r -> 0 <= a * a' + b * b'.
  Proof.
    intros L. pose proof (sig_pos r ltac:(lra)) as S. pose proof (sig_sq r ltac:(lra)) as Q. assert (Q1 : 0 < 1 - r ^ 2) by nra.
    assert (SL : sig r <= 1 - r ^ 2 / 2).
    { apply Rsqr_incr_0_var; [|nra]. unfold Rsqr. rewrite Q. pose proof (pow2_ge_0 (r ^ 2 / 2)). replace ((1 - r ^ 2 / 2) * (1 - r ^ 2 / 2)) with (1 - r ^ 2 + (r ^ 2 / 2) ^ 2) by field. lra. }
    assert (S1 : a + b >= 0).
    { unfold a, b. rewrite U_refl_int, U_int by exact Hr.
      assert (RInt (fun y => gphi y * psi r (- y)) y1 y2 <= RInt (fun y => gphi y * psi r y) y1 y2); [|lra].
      apply RInt_le; [exact H1|apply ex_psi_opp; exact Hr|apply ex_psi; exact Hr|]. intros y Y. pose proof (psi_incr r (- y) y Hr ltac:(lra) ltac:(nra)). pose proof (gphi_pos y). nra. }
    assert (S2 : a - b >= 0).
    { unfold a, b. rewrite U_refl_int, U_int by exact Hr.
      assert (X : 2 * alpha * qm y1 y2 <= RInt (fun y => plus (gphi y * psi r y) (gphi y * psi r (- y))) y1 y2).
      { unfold qm. rewrite <- gphi_int.
        replace (2 * alpha * RInt gphi y1 y2) with (RInt (fun y => scal (2 * alpha) (gphi y)) y1 y2) by (apply (RInt_scal (V := R_CompleteNormedModule)); apply ex_gphi).
        apply RInt_le; [exact H1|apply (ex_RInt_scal (V := R_NormedModule)); apply ex_gphi|exact (ex_RInt_plus (V := R_NormedModule) _ _ y1 y2 (ex_psi r y1 y2 Hr) (ex_psi_opp r y1 y2 Hr))|].
        intros y Y. unfold scal, plus; simpl; unfold mult; simpl. pose proof (gphi_pos y) as G.
        assert (2 * alpha <= psi r y + psi r (- y)); [|nra].
        unfold psi, win, alpha. replace (- (r * - y) / sig r) with (- (- (r * y) / sig r)) by (field; lra). rewrite gPhi_opp.
        assert (G1 : gPhi 5 <= gPhi (- (r * y) / sig r + 5 / sig r)).
        { destruct (Rle_lt_or_eq_dec 5 (- (r * y) / sig r + 5 / sig r)) as [M|M]; [|left; apply gPhi_incr; exact M|rewrite <- M; apply Rle_refl].
          replace (- (r * y) / sig r + 5 / sig r) with ((5 - r * y) / sig r) by (field; lra). apply Rmult_le_reg_r with (sig r); [exact S|]. unfold Rdiv. rewrite Rmult_assoc, Rinv_l by lra. assert (r * y <= 5 / 2 * r ^ 2) by nra. lra. }
        assert (G2 : gPhi 5 <= gPhi (- (- (r * y) / sig r) + 5 / sig r)).
        { destruct (Rle_lt_or_eq_dec 5 (- (- (r * y) / sig r) + 5 / sig r)) as [M|M]; [|left; apply gPhi_incr; exact M|rewrite <- M; apply Rle_refl].
          replace (- (- (r * y) / sig r) + 5 / sig r) with ((5 + r * y) / sig r) by (field; lra). apply Rmult_le_reg_r with (sig r); [exact S|]. unfold Rdiv. rewrite Rmult_assoc, Rinv_l by lra. assert (0 <= r * y) by nra. assert (0 <= r ^ 2) by nra. lra. }
        lra. }
      pose proof (RInt_plus (V := R_CompleteNormedModule) (fun y => gphi y * psi r y) (fun y => gphi y * psi r (- y)) y1 y2 (ex_psi r y1 y2 Hr) (ex_psi_opp r y1 y2 Hr)) as E.
      set (I1 := RInt (fun y => gphi y * psi r y) y1 y2) in *. set (I2 := RInt (fun y => gphi y * psi r (- y)) y1 y2) in *.
      assert (X2 : 2 * alpha * qm y1 y2 <= I1 + I2) by (eapply Rle_trans; [exact X|right; exact E]). lra. }
    assert (S3 : a' + b' >= 0).
    { assert (X : - (w r y1 + w r (- y1)) <= - (w r y2 + w r (- y2))); [|unfold a', b'; lra].
      apply (mono_of_derive (fun y => - (w r y + w r (- y))) (fun y => - ((bvn_density r 0 y * ((r * 0 - y) / (1 - r ^ 2)) - bvn_density r 5 y * ((r * 5 - y) / (1 - r ^ 2))) +
        (bvn_density r 0 (- y) * ((- (r * 0) - y) / (1 - r ^ 2)) - bvn_density r 5 (- y) * ((- (r * 5) - y) / (1 - r ^ 2)))))); [exact H1| |].
      - intros t _. apply (is_derive_opp (fun y => w r y + w r (- y))). apply (is_derive_plus (V := R_NormedModule) (w r) (fun y => w r (- y))); [apply w_derive; lra|apply wo_derive; lra].
      - intros t T. rewrite d0_even. assert (RT : r * t <= 5 / 2) by nra. pose proof (d5_le_d0 r t Hr RT) as D. pose proof (dens_pos r 5 (- t) ltac:(lra)) as D5.
        assert (D2 : bvn_density r 5 (- t) <= bvn_density r 5 t).
        { rewrite !d5_d0 by exact Hr. rewrite d0_even. apply Rmult_le_compat_l; [left; apply dens_pos; lra|]. apply exp_le_mono. unfold Rdiv. apply Rmult_le_compat_r; [left; apply Rinv_0_lt_compat; lra|nra]. }
        match goal with |- 0 <= ?e => replace e with ((t * (2 * bvn_density r 0 t - bvn_density r 5 t - bvn_density r 5 (- t)) + 5 * r * (bvn_density r 5 t - bvn_density r 5 (- t))) / (1 - r ^ 2)) by (field; lra) end.
        apply Rmult_le_pos; [|left; apply Rinv_0_lt_compat; exact Q1].
        assert (0 <= t * (2 * bvn_density r 0 t - bvn_density r 5 t - bvn_density r 5 (- t))) by (apply Rmult_le_pos; lra).
        assert (0 <= 5 * r * (bvn_density r 5 t - bvn_density r 5 (- t))) by (apply Rmult_le_pos; lra). lra. }
    assert (S4 : a' - b' >= 0).
    { assert (X : - (w r y1 - w r (- y1)) <= - (w r y2 - w r (- y2))); [|unfold a', b'; lra].
      apply (mono_of_derive (fun y => - (w r y - w r (- y))) (fun y => - ((bvn_density r 0 y * ((r * 0 - y) / (1 - r ^ 2)) - bvn_density r 5 y * ((r * 5 - y) / (1 - r ^ 2))) -
        (bvn_density r 0 (- y) * ((- (r * 0) - y) / (1 - r ^ 2)) - bvn_density r 5 (- y) * ((- (r * 5) - y) / (1 - r ^ 2)))))); [exact H1| |].
      - intros t _. apply (is_derive_opp (fun y => w r y - w r (- y))). apply (is_derive_minus (V := R_NormedModule) (w r) (fun y => w r (- y))); [apply w_derive; lra|apply wo_derive; lra].
      - intros t T. rewrite d0_even. pose proof (dens_pos r 5 t ltac:(lra)) as D. pose proof (dens_pos r 5 (- t) ltac:(lra)) as D5.
        match goal with |- 0 <= ?e => replace e with (((5 * r - t) * bvn_density r 5 t + (5 * r + t) * bvn_density r 5 (- t)) / (1 - r ^ 2)) by (field; lra) end.
        apply Rmult_le_pos; [|left; apply Rinv_0_lt_compat; exact Q1].
        assert (0 <= (5 * r - t) * bvn_density r 5 t) by (apply Rmult_le_pos; lra).
        assert (0 <= (5 * r + t) * bvn_density r 5 (- t)) by (apply Rmult_le_pos; lra). lra. }
    clear - S1 S2 S3 S4. clearbody a b a' b'. assert (0 <= (a + b) * (a' + b')) by (apply Rmult_le_pos; lra). assert (0 <= (a - b) * (a' - b')) by (apply Rmult_le_pos; lra). nra.
  Qed.
End Pair.

(** high bins *)
Lemma d5_d0o : forall r y, 0 <= r < 1 -> bvn_density r 5 (- y) = bvn_density r 0 y * exp ((- 10 * r * y - 25) / (2 * (1 - r ^ 2))).
Proof.
  intros r y H. assert (Q : 0 < 1 - r ^ 2) by nra. unfold bvn_density.
  replace (- (5 ^ 2 - 2 * r * 5 * - y + (- y) ^ 2) / (2 * (1 - r ^ 2))) with (- (0 ^ 2 - 2 * r * 0 * y + y ^ 2) / (2 * (1 - r ^ 2)) + (- 10 * r * y - 25) / (2 * (1 - r ^ 2))) by (field; lra).
  rewrite exp_plus. unfold Rdiv. ring.
Qed.
Lemma far_small : forall r y, 0 <= r < 1 -> 0 <= y -> 0 < exp ((- 10 * r * y - 25) / (2 * (1 - r ^ 2))) <= 2 / 27.
Proof.
  intros r y H Y. split; [apply exp_pos|]. assert (Q : 0 < 1 - r ^ 2 <= 1) by nra. assert (RY : 0 <= r * y) by nra.
  apply Rle_trans with (exp (- (25 / 2))).
  - apply exp_le_mono. apply Rmult_le_reg_r with (2 * (1 - r ^ 2)); [lra|]. unfold Rdiv at 1. rewrite Rmult_assoc, Rinv_l by lra. nra.
  - rewrite exp_Ropp. replace (2 / 27) with (/ (27 / 2)) by field. apply Rinv_le_contravar; [lra|]. pose proof (exp_ineq1 (25 / 2) ltac:(lra)). lra.
Qed.
Lemma high_slope : forall t y1 y2, 0 <= t < 1 -> 0 <= y1 -> y1 <= y2 -> 5 / 2 * t <= y2 -> y1 = 0 \/ y2 <= 3 * y1 -> 0 <= w t (- y1) - w t (- y2).
Proof.
  intros t y1 y2 H Y1 Y2 L C. assert (Q : 0 < 1 - t ^ 2) by nra. destruct C as [C|C].
  - subst y1. unfold w. rewrite !d0_even, !d5_d0o by exact H.
    assert (X : bvn_density t 0 y2 = bvn_density t 0 0 * exp (- y2 ^ 2 / (2 * (1 - t ^ 2)))).
    { unfold bvn_density. replace (- (0 ^ 2 - 2 * t * 0 * 0 + 0 ^ 2) / (2 * (1 - t ^ 2))) with 0 by (field; lra). rewrite exp_0.
      replace (- (0 ^ 2 - 2 * t * 0 * y2 + y2 ^ 2)) with (- y2 ^ 2) by ring. unfold Rdiv. ring. }
    rewrite X. pose proof (far_small t 0 H ltac:(lra)) as E0. set (e0 := exp ((- 10 * t * 0 - 25) / (2 * (1 - t ^ 2)))) in *.
    set (x := exp (- y2 ^ 2 / (2 * (1 - t ^ 2)))).
    assert (Z : exp ((- 10 * t * y2 - 25) / (2 * (1 - t ^ 2))) >= e0 * x ^ 4).
    { assert (X4 : x ^ 4 = exp (- 4 * y2 ^ 2 / (2 * (1 - t ^ 2)))).
      { unfold x. set (u := - y2 ^ 2 / (2 * (1 - t ^ 2))). replace (exp u ^ 4) with (exp u * exp u * (exp u * exp u)) by ring. rewrite <- !exp_plus. f_equal. unfold u. field. lra. }
      rewrite X4. unfold e0. rewrite <- exp_plus. apply Rle_ge. apply exp_le_mono. unfold Rdiv. rewrite <- Rmult_plus_distr_r. apply Rmult_le_compat_r; [left; apply Rinv_0_lt_compat; lra|nra]. }
    assert (X1 : 0 < x <= 1).
    { unfold x. split; [apply exp_pos|]. rewrite <- exp_0 at 2. apply exp_le_mono. unfold Rdiv. assert (0 < / (2 * (1 - t ^ 2))) by (apply Rinv_0_lt_compat; lra). nra. }
    pose proof (dens_pos t 0 0 ltac:(lra)) as D. set (z := exp ((- 10 * t * y2 - 25) / (2 * (1 - t ^ 2)))) in *. set (d := bvn_density t 0 0) in *. clearbody e0 x z d.
    replace (d - d * e0 - (d * x - d * x * z)) with (d * ((1 - x) - e0 + x * z)) by ring. apply Rmult_le_pos; [lra|].
    assert (XZ : x * (e0 * x ^ 4) <= x * z) by (apply Rmult_le_compat_l; lra).
    assert (F : 1 - x ^ 5 <= 5 * (1 - x)).
    { replace (1 - x ^ 5) with ((1 - x) * (1 + x + x ^ 2 + x ^ 3 + x ^ 4)) by ring. rewrite (Rmult_comm 5). apply Rmult_le_compat_l; [lra|].
      pose proof (pow_incr x 1 2 ltac:(lra)). pose proof (pow_incr x 1 3 ltac:(lra)). pose proof (pow_incr x 1 4 ltac:(lra)). rewrite pow1 in *. lra. }
    assert (XX : x * (e0 * x ^ 4) = e0 - e0 * (1 - x ^ 5)) by ring. rewrite XX in XZ.
    assert (e0 * (1 - x ^ 5) <= 2 / 27 * (5 * (1 - x))).
    { apply Rle_trans with (e0 * (5 * (1 - x))); [apply Rmult_le_compat_l; lra|apply Rmult_le_compat_r; lra]. }
    lra.
  - assert (M : - w t (- y1) <= - w t (- y2)); [|lra].
    apply (mono_of_derive (fun y => - w t (- y)) (fun y => - (bvn_density t 0 (- y) * ((- (t * 0) - y) / (1 - t ^ 2)) - bvn_density t 5 (- y) * ((- (t * 5) - y) / (1 - t ^ 2))))); [exact Y2| |].
    + intros u _. apply (is_derive_opp (fun y => w t (- y))). apply wo_derive. lra.
    + intros u T. rewrite d0_even, d5_d0o by exact H. pose proof (far_small t u H ltac:(lra)) as E. set (e := exp ((- 10 * t * u - 25) / (2 * (1 - t ^ 2)))) in *.
      pose proof (dens_pos t 0 u ltac:(lra)) as D. set (d := bvn_density t 0 u) in *. clearbody e d.
      replace (- (d * ((- (t * 0) - u) / (1 - t ^ 2)) - d * e * ((- (t * 5) - u) / (1 - t ^ 2)))) with (d * (u - (5 * t + u) * e) / (1 - t ^ 2)) by (field; lra).
      apply Rmult_le_pos; [|left; apply Rinv_0_lt_compat; exact Q]. apply Rmult_le_pos; [lra|].
      assert ((5 * t + u) * e <= 7 * u * (2 / 27)); [|lra]. apply Rmult_le_compat; lra.
Qed.
Lemma pair_high : forall r y1 y2, 0 < r < 1 -> 0 <= y1 -> y1 <= y2 -> 5 / 2 * r <= y2 -> y1 = 0 \/ y2 <= 3 * y1 ->
  0 <= alpha * qm y1 y2 - U r (- y2) (- y1) /\ 0 <= w r (- y1) - w r (- y2).
Proof.
  intros r y1 y2 H A B C D. split; [|apply high_slope; [lra|exact A|exact B|exact C|exact D]].
  assert (E : qm (- y2) (- y1) = qm y1 y2) by (unfold qm; rewrite !gPhi_opp; ring).
  assert (M : alpha * qm y1 y2 - U 0 (- y2) (- y1) <= alpha * qm y1 y2 - U r (- y2) (- y1)); [|rewrite U_zero, E in M; lra].
  apply (mono_of_derive (fun t => alpha * qm y1 y2 - U t (- y2) (- y1)) (fun t => 0 - (w t (- y2) - w t (- y1)))); [lra| |].
  - intros t T. apply (is_derive_minus (V := R_NormedModule) (fun _ => alpha * qm y1 y2) (fun t => U t (- y2) (- y1))); [apply (is_derive_const (V := R_NormedModule))|apply U_derive; lra].
  - intros t T. pose proof (high_slope t y1 y2 ltac:(lra) A B ltac:(nra) D). lra.
Qed.
(** the bin around 0 *)
Lemma middle_bin : forall r h, 0 < r < 1 -> 0 <= h -> 0 <= (U r (- h) h - alpha * qm (- h) h) * (w r (- h) - w r h).
Proof.
  intros r h H Hh.
  assert (S : forall t, 0 <= t < 1 -> 0 <= w t (- h) - w t h).
  { intros t T. unfold w. rewrite d0_even. assert (bvn_density t 5 (- h) <= bvn_density t 5 h); [|lra].
    unfold bvn_density. apply Rmult_le_compat_r.
    - left. apply Rinv_0_lt_compat. pose proof (sig_pos t ltac:(lra)) as SP. unfold sig in SP. pose proof PI_RGT_0. nra.
    - apply exp_le_mono. unfold Rdiv. apply Rmult_le_compat_r; [left; apply Rinv_0_lt_compat; nra|nra]. }
  apply Rmult_le_pos; [|apply S; lra].
  assert (M : U 0 (- h) h <= U r (- h) h); [|rewrite U_zero in M; lra].
  apply (mono_of_derive (fun t => U t (- h) h) (fun t => w t (- h) - w t h)); [lra| |].
  - intros t T. apply U_derive. lra.
  - intros t T. apply S. lra.
Qed.

(** summation by parts *)
Lemma abel : forall (d w : nat -> R) n k, (forall j, (k <= j <= k + n)%nat -> 0 < d j) -> (forall j, (k <= j < k + n)%nat -> d (S j) <= d j) -> (forall j, (k < j <= S (k + n))%nat -> w j < 0) ->
  d k * w k < lsum (fun j => d j * (w j - w (S j))) (seq k (S n)).
Proof.
  intros d v n. induction n as [|n IH]; intros k D M W.
  - simpl. pose proof (D k ltac:(lia)). pose proof (W (S k) ltac:(lia)). nra.
  - change (seq k (S (S n))) with (k :: seq (S k) (S n)). rewrite lsum_cons. pose proof (IH (S k)) as I.
    assert (X : d (S k) * v (S k) < lsum (fun j => d j * (v j - v (S j))) (seq (S k) (S n))).
    { apply I; [intros; apply D; lia|intros; apply M; lia|intros; apply W; lia]. }
    pose proof (M k ltac:(lia)). pose proof (W (S k) ltac:(lia)). nra.
Qed.
Lemma crossing : forall (P : nat -> Prop) m, (forall k, {P k} + {~ P k}) -> P 0%nat -> ~ P m -> exists s, (s < m)%nat /\ P s /\ ~ P (S s).
Proof.
  intros P m D P0. induction m as [|m IH]; intros N; [contradiction|]. destruct (D m) as [Y|Y].
  - exists m. split; [lia|split; assumption].
  - destruct (IH Y) as (s & A & B). exists s. split; [lia|exact B].
Qed.
Lemma Phi_15 : 7 / 8 < gPhi (3 / 2).
Proof.
  pose proof (mills_upper (3 / 2) ltac:(lra)) as M. assert (G : gphi (3 / 2) <= 3 / 16); [|lra].
  unfold gphi. assert (E : exp (- (3 / 2) ^ 2 / 2) <= 9 / 20).
  { replace (- (3 / 2) ^ 2 / 2) with (- (9 / 8)) by field. rewrite exp_Ropp. replace (9 / 20) with (/ (20 / 9)) by field. apply Rinv_le_contravar; [lra|].
    assert (Q : (1 + 9 / 16) ^ 2 <= exp (9 / 16) ^ 2) by (apply pow_incr; pose proof (exp_ineq1 (9 / 16) ltac:(lra)); lra).
    assert (T : exp (9 / 8) = exp (9 / 16) ^ 2) by (simpl; rewrite Rmult_1_r, <- exp_plus; f_equal; field). rewrite T. lra. }
  assert (P : 12 / 5 <= sqrt (2 * PI)).
  { apply Rsqr_incr_0_var; [|apply sqrt_pos]. unfold Rsqr. rewrite sqrt2pi_sq. pose proof PI2_3_2. unfold PI2 in *. lra. }
  apply Rmult_le_reg_r with (sqrt (2 * PI)); [lra|]. unfold Rdiv at 1. rewrite Rmult_assoc, Rinv_l by lra. lra.
Qed.

(** the bins on the positive side, each with its mirror image *)
Section Half.
  Variables r h e0 : R.
  Variable m : nat.
  Hypothesis Hr : 0 < r < 1.
  Hypothesis Hh : 0 < h.
  Hypothesis Hm : (1 <= m)%nat.
  Hypothesis He : e0 = 0 \/ e0 = h / 2.
  Hypothesis Hend : e0 + INR m * h = 5.
  Let e (k : nat) : R := e0 + INR k * h.
  Let q (k : nat) : R := qm (e k) (e (S k)).
  Let d (k : nat) : R := U r (e k) (e (S k)) / q k - alpha.
  Let v (k : nat) : R := w r (e k).
  Let term (k : nat) : R := ((U r (e k) (e (S k)) - alpha * q k) * (v k - v (S k)) +
    (alpha * q k - U r (- e (S k)) (- e k)) * (w r (- e k) - w r (- e (S k)))) / q k.

  Lemma e_S : forall k, e (S k) = e k + h. Proof. intros k. unfold e. rewrite S_INR. ring. Qed.
  Lemma e_le : forall j k, (j <= k)%nat -> e j <= e k.
  Proof. intros j k L. unfold e. apply le_INR in L. nra. Qed.
  Lemma e_0 : 0 <= e 0 <= 5 / 3.
  Proof. unfold e. simpl. apply le_INR in Hm. simpl in Hm. destruct He as [E|E]; nra. Qed.
  Lemma e_pos : forall k, 0 <= e k. Proof. intros k. pose proof (e_le 0 k ltac:(lia)). pose proof e_0. lra. Qed.
  Lemma e_m : e m = 5. Proof. exact Hend. Qed.
  Lemma e_5 : forall k, (k <= m)%nat -> e k <= 5. Proof. intros k L. rewrite <- e_m. apply e_le. exact L. Qed.
  Lemma e_ratio : forall k, e k = 0 \/ e (S k) <= 3 * e k.
  Proof.
    intros k. rewrite e_S. destruct He as [E|E].
    - destruct k as [|k]; [left; unfold e; simpl; lra|right]. unfold e. rewrite S_INR. pose proof (pos_INR k). nra.
    - right. unfold e. pose proof (pos_INR k). nra.
  Qed.
  Lemma q_pos : forall k, 0 < q k. Proof. intros k. apply qm_pos. rewrite e_S. lra. Qed.
  Lemma d_lower : forall k b, (forall y, e k <= y <= e (S k) -> b <= psi r y) -> b - alpha <= d k.
  Proof.
    intros k b H. pose proof (mean_lower r (e k) (e (S k)) b Hr ltac:(rewrite e_S; lra) H) as M. fold (q k) in M. pose proof (q_pos k). unfold d.
    assert (b <= U r (e k) (e (S k)) / q k); [|lra]. apply Rmult_le_reg_r with (q k); [assumption|]. unfold Rdiv. rewrite Rmult_assoc, Rinv_l by lra. lra.
  Qed.
  Lemma d_upper : forall k b, (forall y, e k <= y <= e (S k) -> psi r y <= b) -> d k <= b - alpha.
  Proof.
    intros k b H. pose proof (mean_upper r (e k) (e (S k)) b Hr ltac:(rewrite e_S; lra) H) as M. fold (q k) in M. pose proof (q_pos k). unfold d.
    assert (U r (e k) (e (S k)) / q k <= b); [|lra]. apply Rmult_le_reg_r with (q k); [assumption|]. unfold Rdiv. rewrite Rmult_assoc, Rinv_l by lra. lra.
  Qed.
  Lemma d_pos : forall k, (k < m)%nat -> 0 < d k.
  Proof.
    intros k L. pose proof (q_pos k). destruct (psi_infimum r (e k) (e (S k)) Hr (e_pos k) ltac:(rewrite e_S; lra) (e_5 (S k) ltac:(lia))) as [A|A]; [|rewrite e_S in A; lra].
    fold (q k) in A. unfold d. assert (alpha < U r (e k) (e (S k)) / q k); [|lra]. apply Rmult_lt_reg_r with (q k); [assumption|]. unfold Rdiv. rewrite Rmult_assoc, Rinv_l by lra. lra.
  Qed.
  Let g (k : nat) : R := if Rle_dec (e (S k)) (5 / 2 * r) then 0 else d k * (v k - v (S k)).
  Lemma term_ge : forall k, (k < m)%nat -> g k <= term k.
  Proof.
    intros k L. pose proof (q_pos k) as Q. pose proof (e_pos k). assert (EE : e k <= e (S k)) by (rewrite e_S; lra). unfold g. destruct (Rle_dec (e (S k)) (5 / 2 * r)) as [A|A].
    - unfold term. apply Rmult_le_pos; [|left; apply Rinv_0_lt_compat; exact Q]. apply pair_low; assumption.
    - destruct (pair_high r (e k) (e (S k)) Hr ltac:(assumption) EE ltac:(lra) (e_ratio k)) as [B1 B2]. fold (q k) in B1. unfold term, d.
      replace (((U r (e k) (e (S k)) - alpha * q k) * (v k - v (S k)) + (alpha * q k - U r (- e (S k)) (- e k)) * (w r (- e k) - w r (- e (S k)))) / q k)
        with ((U r (e k) (e (S k)) / q k - alpha) * (v k - v (S k)) + (alpha * q k - U r (- e (S k)) (- e k)) * (w r (- e k) - w r (- e (S k))) * / q k) by (field; lra).
      assert (0 <= (alpha * q k - U r (- e (S k)) (- e k)) * (w r (- e k) - w r (- e (S k))) * / q k) by (apply Rmult_le_pos; [apply Rmult_le_pos; assumption|left; apply Rinv_0_lt_compat; exact Q]). lra.
  Qed.
  (** bins where w still decreases *)
  Lemma g_rise : forall k, (k < m)%nat -> r * e (S k) <= 5 / 2 -> 0 <= d k * (v k - v (S k)).
  Proof.
    intros k L A. pose proof (d_pos k L). pose proof (w_decr r (e k) (e (S k)) Hr (e_pos k) ltac:(rewrite e_S; lra) A). fold (v k) (v (S k)) in *. apply Rmult_le_pos; lra.
  Qed.
  Lemma g_nonneg : forall k, (k < m)%nat -> r * e (S k) <= 5 / 2 -> 0 <= g k.
  Proof. intros k L A. unfold g. destruct (Rle_dec _ _); [lra|]. apply g_rise; assumption. Qed.

  Lemma sum_g : 0 < lsum g (seq 0 m).
  Proof.
    destruct (Rle_dec (r * 5) (5 / 2)) as [A|A].
    - destruct m as [|m'] eqn:EM; [lia|]. rewrite <- EM in *. replace (seq 0 m) with (seq 0 m' ++ [m']) by (rewrite EM, seq_S; reflexivity). rewrite lsum_app. 
      assert (AL : forall k, (k <= m)%nat -> r * e k <= 5 / 2) by (intros k L; pose proof (e_5 k L); nra).
      assert (0 <= lsum g (seq 0 m')) by (apply lsum_nonneg; intros k K; apply in_seq in K; apply g_nonneg; [lia|apply AL; lia]).
      assert (0 < g m').
      { unfold g. assert (ES : e (S m') = 5) by (rewrite <- EM; apply e_m). destruct (Rle_dec _ _) as [B|B]; [rewrite ES in B; lra|].
        apply Rmult_lt_0_compat; [apply d_pos; lia|]. pose proof (w_decr r (e m') (e (S m')) Hr (e_pos m') ltac:(rewrite e_S; lra) ltac:(apply AL; lia)). unfold v. lra. }
      simpl. lra.
    - destruct (crossing (fun k => r * e k <= 5 / 2) m) as (s & S1 & S2 & S3).
      { intros k. apply Rle_dec. } { pose proof e_0. nra. } { rewrite e_m. exact A. }
      apply Rnot_le_lt in S3. set (n := (m - s - 1)%nat). replace m with (s + S n)%nat by (unfold n; lia). rewrite seq_app, lsum_app. rewrite Nat.add_0_l.
      assert (0 <= lsum g (seq 0 s)).
      { apply lsum_nonneg. intros k K. apply in_seq in K. apply g_nonneg; [lia|]. pose proof (e_le (S k) s ltac:(lia)). nra. }
      assert (UP : forall k, (s < k)%nat -> 5 / 2 < r * e k) by (intros k K; pose proof (e_le (S s) k ltac:(lia)); nra).
      assert (GE : lsum g (seq s (S n)) = lsum (fun j => d j * (v j - v (S j))) (seq s (S n))).
      { apply lsum_ext. intros k K. apply in_seq in K. unfold g. destruct (Rle_dec _ _) as [B|B]; [|reflexivity]. exfalso. pose proof (UP (S k) ltac:(lia)). nra. }
      rewrite GE. assert (VN : forall k, (s < k)%nat -> v k < 0) by (intros k K; apply w_neg; [exact Hr|apply UP; exact K]).
      assert (V0 : 0 <= v s) by (apply w_nonneg; assumption).
      assert (DP : forall k, (k < s + S n)%nat -> 0 < d k) by (intros k K; apply d_pos; unfold n in K; lia).
      destruct n as [|n'] eqn:EN.
      + cbn [seq]. rewrite lsum_cons. simpl (lsum _ []). pose proof (VN (S s) ltac:(lia)). pose proof (DP s ltac:(lia)). nra.
      + change (seq s (S (S n'))) with (s :: seq (S s) (S n')). rewrite lsum_cons.
        assert (AB : d (S s) * v (S s) < lsum (fun j => d j * (v j - v (S j))) (seq (S s) (S n'))).
        { apply abel.
          - intros j J. apply DP. lia.
          - intros j J. pose proof (UP j ltac:(lia)) as UJ. pose proof (UP (S j) ltac:(lia)) as USJ.
            pose proof (d_lower j (psi r (e (S j)))) as DL. pose proof (d_upper (S j) (psi r (e (S j)))) as DU.
            assert (psi r (e (S j)) - alpha <= d j) by (apply DL; intros y Y; apply psi_decr; [exact Hr|lra|nra]).
            assert (d (S j) <= psi r (e (S j)) - alpha) by (apply DU; intros y Y; apply psi_decr; [exact Hr|lra|nra]). lra.
          - intros j J. apply VN. lia. }
        assert (FIN : 0 <= d s * (v s - v (S s)) + d (S s) * v (S s)); [|lra].
        pose proof (DP s ltac:(lia)) as Ds. pose proof (DP (S s) ltac:(lia)) as Dss. pose proof (VN (S s) ltac:(lia)) as Vss.
        assert (DU : d (S s) <= psi r (e (S s)) - alpha) by (apply d_upper; intros y Y; apply psi_decr; [exact Hr|lra|lra]).
        destruct (Rle_dec 5 (r * (e s + e (S s)))) as [T|T].
        * assert (PS : psi r (e (S s)) <= psi r (e s)).
          { rewrite (psi_sym r (e s) (5 / r - e s) Hr) by (field; lra). apply psi_decr; [exact Hr| |].
            - assert (5 / r <= e s + e (S s)); [|lra]. apply Rmult_le_reg_r with r; [lra|]. unfold Rdiv. rewrite Rmult_assoc, Rinv_l by lra. lra.
            - replace (r * (5 / r - e s)) with (5 - r * e s) by (field; lra). lra. }
          assert (DL : psi r (e (S s)) - alpha <= d s).
          { apply d_lower. intros y Y. eapply Rle_trans; [|apply (psi_min r (e s) (e (S s)) y Hr Y)]. apply Rmin_glb; lra. }
          assert (d (S s) <= d s) by lra. nra.
        * assert (PS : psi r (e s) <= psi r (e (S s))).
          { rewrite (psi_sym r (e (S s)) (5 / r - e (S s)) Hr) by (field; lra). apply psi_incr; [exact Hr| |].
            - assert (e s + e (S s) <= 5 / r); [|lra]. apply Rmult_le_reg_r with r; [lra|]. unfold Rdiv. rewrite Rmult_assoc, Rinv_l by lra. lra.
            - replace (r * (5 / r - e (S s))) with (5 - r * e (S s)) by (field; lra). lra. }
          assert (DL : psi r (e s) - alpha <= d s).
          { apply d_lower. intros y Y. eapply Rle_trans; [|apply (psi_min r (e s) (e (S s)) y Hr Y)]. apply Rmin_glb; lra. }
          assert (VV : - v (S s) <= v s).
          { apply Rle_trans with (w r (5 / r - e (S s))).
            - apply w_mirror; [exact Hr| |field; lra]. apply Rmult_le_reg_r with r; [lra|]. replace ((5 / r - e (S s)) * r) with (5 - r * e (S s)) by (field; lra). lra.
            - assert (LE : e s <= 5 / r - e (S s)).
              { assert (e s + e (S s) <= 5 / r); [|lra]. apply Rmult_le_reg_r with r; [lra|]. unfold Rdiv. rewrite Rmult_assoc, Rinv_l by lra. lra. }
              destruct LE as [LE|LE]; [|unfold v; rewrite <- LE; lra]. left. apply w_decr; [exact Hr|apply e_pos|exact LE|].
              replace (r * (5 / r - e (S s))) with (5 - r * e (S s)) by (field; lra). lra. }
          assert (HH : h <= 2).
          { assert (M5 : e (S s) + h <= 5) by (rewrite <- e_S; apply e_5; unfold n in EN; lia).
            assert (E25 : 5 / 2 < e (S s)) by (pose proof (e_pos (S s)); nra). assert (H25 : h < 5 / 2) by lra.
            destruct He as [E|E].
            - assert (3 <= m)%nat. { destruct (le_lt_dec 3 m) as [K|K]; [exact K|exfalso]. assert (K2 : (m <= 2)%nat) by lia. apply le_INR in K2. simpl in K2. nra. }
              apply le_INR in H0. simpl in H0. nra.
            - assert (2 <= m)%nat. { destruct (le_lt_dec 2 m) as [K|K]; [exact K|exfalso]. assert (K2 : (m <= 1)%nat) by lia. apply le_INR in K2. simpl in K2. nra. }
              apply le_INR in H0. simpl in H0. nra. }
          assert (BIG : 3 / 4 <= psi r (e s)).
          { pose proof (sig_pos r ltac:(lra)) as SP. pose proof (sig_sq r ltac:(lra)) as SQ.
            assert (A15 : 3 / 2 <= r * e s / sig r).
            { apply Rmult_le_reg_r with (sig r); [exact SP|]. unfold Rdiv at 2. rewrite Rmult_assoc, Rinv_l by lra. rewrite e_S in S3.
              assert (r * e s > 5 / 2 - 2 * r) by nra. assert (2 * r + 3 / 2 * sig r <= 5 / 2); [|lra].
              apply Rsqr_incr_0_var; [|lra]. unfold Rsqr. pose proof (pow2_ge_0 (3 / 2 * r - 2 * sig r)). nra. }
            unfold psi, win. replace (- (r * e s) / sig r) with (- (r * e s / sig r)) by (field; lra). rewrite gPhi_opp.
            assert (G1 : gPhi (3 / 2) <= gPhi (r * e s / sig r)) by (destruct A15 as [X|X]; [left; apply gPhi_incr; exact X|rewrite <- X; lra]).
            assert (G2 : gPhi (r * e s / sig r) <= gPhi (- (r * e s / sig r) + 5 / sig r)).
            { assert (X : r * e s / sig r <= - (r * e s / sig r) + 5 / sig r).
              { replace (- (r * e s / sig r) + 5 / sig r) with ((5 - r * e s) / sig r) by (field; lra). unfold Rdiv. apply Rmult_le_compat_r; [left; apply Rinv_0_lt_compat; exact SP|lra]. }
              destruct X as [X|X]; [left; apply gPhi_incr; exact X|rewrite <- X; lra]. }
            pose proof Phi_15. lra. }
          pose proof (psi_le1 r (e (S s))). pose proof alpha_half.
          assert (D2 : d (S s) <= 2 * d s) by lra.
          clear - Ds Dss Vss V0 VV D2. nra.
  Qed.
  Lemma half_sum : 0 < lsum term (seq 0 m).
  Proof. eapply Rlt_le_trans; [exact sum_g|]. apply lsum_le. intros k K. apply in_seq in K. apply term_ge. lia. Qed.
End Half.
