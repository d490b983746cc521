(** On a grid with the same edges on both axes the binned chi2 of the bivariate normal grows strictly with the correlation. The
    mixed differences of the density form a positive semidefinite kernel (power series of exp), and so do their integrals. *)
From Coq Require Import List Reals Lra Lia Psatz ZArith.
From Coquelicot Require Import Coquelicot.
From Verif Require Import Base RSum SpecSolver SpecBiv Gauss SpecBvn CdfProofs BvnProofs BvnProofs2.
Import ListNotations.
Open Scope R_scope.

Definition psd (K : nat -> nat -> R) : Prop :=
  exists a : nat -> nat -> R, forall i j, Un_cv (fun N => lsum (fun n => a n i * a n j) (seq 0 (S N))) (K i j).

Lemma cv_lsum : forall (A : Type) (u : A -> nat -> R) (v : A -> R) l, (forall a, In a l -> Un_cv (u a) (v a)) -> Un_cv (fun N => lsum (fun a => u a N) l) (lsum v l).
Proof.
  intros A u v l. induction l as [|a l IH]; intros H.
  - intros eps He. exists 0%nat. intros n _. unfold R_dist. simpl. rewrite Rminus_diag_eq, Rabs_R0 by reflexivity. exact He.
  - apply (CV_plus (u a) (fun N => lsum (fun a => u a N) l)); [apply H; left; reflexivity|apply IH; intros; apply H; right; assumption].
Qed.
Lemma cv_const : forall k, Un_cv (fun _ => k) k.
Proof. intros k eps He. exists 0%nat. intros n _. unfold R_dist. rewrite Rminus_diag_eq, Rabs_R0 by reflexivity. exact He. Qed.
Lemma cv_ext : forall u v l, (forall n, u n = v n) -> Un_cv u l -> Un_cv v l.
Proof. intros u v l E H eps He. destruct (H eps He) as [N HN]. exists N. intros n Hn. rewrite <- E. apply HN. exact Hn. Qed.

Lemma lsum_mult : forall (A B : Type) (f : A -> R) (g : B -> R) l k, lsum f l * lsum g k = lsum (fun a => lsum (fun b => f a * g b) k) l.
Proof. intros A B f g l k. rewrite <- lsum_scal_r. apply lsum_ext. intros a _. symmetry. apply lsum_scal. Qed.

Lemma rank_pair : forall (w : nat -> R) (a b : nat -> nat -> R) l N,
  lsum (fun i => lsum (fun j => w i * w j * (lsum (fun n => a n i * a n j) N * lsum (fun m => b m i * b m j) N)) l) l =
  lsum (fun n => lsum (fun m => (lsum (fun i => w i * (a n i * b m i)) l) ^ 2) N) N.
Proof.
  intros w a b l N.
  transitivity (lsum (fun i => lsum (fun j => lsum (fun n => lsum (fun m => (w i * (a n i * b m i)) * (w j * (a n j * b m j))) N) N) l) l).
  - apply lsum_ext. intros i _. apply lsum_ext. intros j _. rewrite lsum_mult, <- lsum_scal. apply lsum_ext. intros n _. rewrite <- lsum_scal. apply lsum_ext. intros m _. ring.
  - transitivity (lsum (fun i => lsum (fun n => lsum (fun m => lsum (fun j => (w i * (a n i * b m i)) * (w j * (a n j * b m j))) l) N) N) l).
    + apply lsum_ext. intros i _. rewrite lsum_swap. apply lsum_ext. intros n _. rewrite lsum_swap. reflexivity.
    + rewrite lsum_swap. apply lsum_ext. intros n _. rewrite lsum_swap. apply lsum_ext. intros m _. simpl. rewrite Rmult_1_r. rewrite lsum_mult. reflexivity.
Qed.

Lemma psd_pair : forall K L w l, psd K -> psd L -> 0 <= lsum (fun i => lsum (fun j => w i * w j * (K i j * L i j)) l) l.
Proof.
  intros K L w l [a HA] [b HB].
  apply (Rle_cv_lim (Un := fun _ => 0) (Vn := fun N => lsum (fun i => lsum (fun j => w i * w j * (lsum (fun n => a n i * a n j) (seq 0 (S N)) * lsum (fun m => b m i * b m j) (seq 0 (S N)))) l) l)).
  - intros N. rewrite rank_pair. apply lsum_nonneg. intros n _. apply lsum_nonneg. intros m _. apply pow2_ge_0.
  - apply cv_const.
  - apply cv_lsum. intros i _. apply cv_lsum. intros j _. apply CV_mult; [apply cv_const|]. apply CV_mult; [apply HA|apply HB].
Qed.

(** the density as a power series *)
Definition gterm (r : R) (n : nat) (x : R) : R :=
  sqrt (/ (2 * PI * sig r) * ((r / (1 - r ^ 2)) ^ n / INR (fact n))) * (exp (- x ^ 2 / (2 * (1 - r ^ 2))) * x ^ n).

Lemma gterm_mult : forall r n x y, 0 <= r < 1 -> gterm r n x * gterm r n y =
  / (2 * PI * sig r) * exp (- x ^ 2 / (2 * (1 - r ^ 2))) * exp (- y ^ 2 / (2 * (1 - r ^ 2))) * (/ INR (fact n) * (r / (1 - r ^ 2) * (x * y)) ^ n).
Proof.
  intros r n x y H. unfold gterm. set (q := / (2 * PI * sig r) * ((r / (1 - r ^ 2)) ^ n / INR (fact n))).
  assert (Q : 0 <= q).
  { unfold q. pose proof (sig_pos r ltac:(lra)). pose proof PI_RGT_0. pose proof (fact_pos n).
    apply Rmult_le_pos; [left; apply Rinv_0_lt_compat; nra|]. apply Rmult_le_pos; [|left; apply Rinv_0_lt_compat; assumption].
    apply pow_le. apply Rmult_le_pos; [lra|left; apply Rinv_0_lt_compat; nra]. }
  set (ex := exp (- x ^ 2 / (2 * (1 - r ^ 2)))). set (ey := exp (- y ^ 2 / (2 * (1 - r ^ 2)))).
  replace (sqrt q * (ex * x ^ n) * (sqrt q * (ey * y ^ n))) with (sqrt q * sqrt q * (ex * ey * (x ^ n * y ^ n))) by ring.
  rewrite sqrt_sqrt by exact Q. rewrite !Rpow_mult_distr. unfold q, Rdiv. ring.
Qed.

Lemma dens_series : forall r x y, 0 <= r < 1 -> Un_cv (fun N => lsum (fun n => gterm r n x * gterm r n y) (seq 0 (S N))) (bvn_density r x y).
Proof.
  intros r x y H. pose proof (sig_pos r ltac:(lra)) as S. pose proof PI_RGT_0 as P.
  set (k := / (2 * PI * sig r) * exp (- x ^ 2 / (2 * (1 - r ^ 2))) * exp (- y ^ 2 / (2 * (1 - r ^ 2)))).
  set (z := r / (1 - r ^ 2) * (x * y)).
  assert (E : bvn_density r x y = k * exp z).
  { unfold bvn_density, k, z. fold (sig r). rewrite !Rmult_assoc, <- !exp_plus. unfold Rdiv at 1. rewrite Rmult_comm. f_equal.
    f_equal. field. nra. }
  rewrite E.
  apply (cv_ext (fun N => k * sum_f_R0 (fun n => / INR (fact n) * z ^ n) N)).
  - intros N. rewrite lsum_sum_f, <- lsum_scal. apply lsum_ext. intros n _. rewrite (gterm_mult r n x y H). reflexivity.
  - apply CV_mult; [apply cv_const|]. unfold exp. destruct (exist_exp z) as [l Hl]. simpl. exact Hl.
Qed.

Lemma corner_psd : forall r (x : nat -> R), 0 <= r < 1 -> psd (fun i j => corner r (x i) (x j) (x (S i)) (x (S j))).
Proof.
  intros r x H. exists (fun n i => gterm r n (x (S i)) - gterm r n (x i)). intros i j. unfold corner.
  apply (cv_ext (fun N => lsum (fun n => gterm r n (x (S i)) * gterm r n (x (S j))) (seq 0 (S N)) - lsum (fun n => gterm r n (x i) * gterm r n (x (S j))) (seq 0 (S N))
                          - lsum (fun n => gterm r n (x (S i)) * gterm r n (x j)) (seq 0 (S N)) + lsum (fun n => gterm r n (x i) * gterm r n (x j)) (seq 0 (S N)))).
  - intros N. rewrite <- !lsum_minus, <- lsum_plus. apply lsum_ext. intros n _. ring.
  - apply CV_plus; [|apply dens_series; exact H]. apply CV_minus; [|apply dens_series; exact H]. apply CV_minus; apply dens_series; exact H.
Qed.

(** sums over the cells *)
Lemma lsum_prod : forall (A B : Type) (f : A * B -> R) l k, lsum f (list_prod l k) = lsum (fun a => lsum (fun b => f (a, b)) k) l.
Proof.
  intros A B f l k. induction l as [|a l IH]; [reflexivity|]. simpl list_prod. rewrite lsum_app, lsum_cons, IH, lsum_map. reflexivity.
Qed.
Lemma is_derive_lsum : forall (A : Type) (f : A -> R -> R) (f' : A -> R) l x, (forall a, In a l -> is_derive (f a) x (f' a)) -> is_derive (fun x => lsum (fun a => f a x) l) x (lsum f' l).
Proof.
  intros A f f' l x. induction l as [|a l IH]; intros H.
  - apply (is_derive_const (K := R_AbsRing) (V := R_NormedModule) 0 x).
  - apply (is_derive_plus (K := R_AbsRing) (V := R_NormedModule) (f a) (fun x => lsum (fun a => f a x) l)); [apply H; left; reflexivity|apply IH; intros; apply H; right; assumption].
Qed.
Lemma telescope : forall (g : nat -> R) n, lsum (fun i => g (S i) - g i) (seq 0 n) = g n - g 0%nat.
Proof. intros g n. induction n as [|n IH]; [simpl; ring|]. rewrite seq_S, lsum_app, IH. simpl. ring. Qed.

(** a function with non-negative slope on [0, b], positive at b *)
Lemma grows : forall (h h' : R -> R) b, 0 < b -> (forall x, 0 <= x <= b -> is_derive h x (h' x)) -> (forall x, 0 <= x <= b -> 0 <= h' x) -> 0 < h' b -> h 0 < h b.
Proof.
  intros h h' b Hb D N P.
  assert (M : forall y, 0 <= y <= b -> h 0 <= h y).
  { intros y Y. destruct (MVT_gen h 0 y h') as (z & Z & E).
    - intros t T. rewrite Rmin_left, Rmax_right in T by lra. apply D. lra.
    - intros t T. rewrite Rmin_left, Rmax_right in T by lra. apply derivable_continuous_pt. exists (h' t). apply is_derive_Reals. apply D. lra.
    - rewrite Rmin_left, Rmax_right in Z by lra. assert (0 <= h' z) by (apply N; lra). nra. }
  pose proof (D b ltac:(lra)) as L. apply is_derive_Reals in L. destruct (L (h' b / 2) ltac:(lra)) as [e E].
  set (k := - Rmin (e / 2) (b / 2)). assert (K : k < 0 /\ - b < k /\ Rabs k < e).
  { unfold k. pose proof (cond_pos e). assert (0 < Rmin (e / 2) (b / 2)) by (apply Rmin_pos; lra). pose proof (Rmin_l (e / 2) (b / 2)). pose proof (Rmin_r (e / 2) (b / 2)).
    rewrite Rabs_Ropp, Rabs_pos_eq by lra. lra. }
  destruct K as (K1 & K2 & K3). pose proof (E k ltac:(lra) K3) as Q. apply Rabs_def2 in Q.
  assert (Q2 : 0 < (h (b + k) - h b) / k) by lra.
  assert (h (b + k) < h b). { assert (X : h (b + k) - h b = (h (b + k) - h b) / k * k) by (field; lra). nra. }
  pose proof (M (b + k) ltac:(lra)). lra.
Qed.

Section SquareGrid.
  Variable n : nat.
  Hypothesis Hn : (1 <= n)%nat.
  Let x (k : nat) : R := nth k (unit_edges n) 0.
  Let p (i : nat) : R := gPhi (x (S i)) - gPhi (x i).
  Let P (i j : nat) (r : R) : R := bvn_prob r (x i) (x j) (x (S i)) (x (S j)).
  Let K (r : R) (i j : nat) : R := corner r (x i) (x j) (x (S i)) (x (S j)).

  Lemma x_step : forall i, (i < n)%nat -> x i < x (S i).
  Proof.
    intros i H. unfold x. rewrite !unit_edges_nth by lia. rewrite S_INR.
    assert (0 < INR n) by (apply lt_0_INR; lia). assert (0 < 10 / INR n) by (apply Rdiv_lt_0_compat; lra). lra.
  Qed.
  Lemma p_pos : forall i, (i < n)%nat -> 0 < p i.
  Proof. intros i H. unfold p. pose proof (gPhi_incr _ _ (x_step i H)). lra. Qed.
  Lemma x_0 : x 0 = -5. Proof. unfold x. rewrite unit_edges_nth by lia. simpl. ring. Qed.
  Lemma x_n : x n = 5. Proof. unfold x. rewrite unit_edges_nth by lia. field. apply not_0_INR. lia. Qed.

  Lemma chi2_grid : forall r, binned_chi2 bvn_prob (unit_edges n) (unit_edges n) r = lsum (fun i => lsum (fun j => (P i j r - p i * p j) ^ 2 / (p i * p j)) (seq 0 n)) (seq 0 n).
  Proof.
    intros r. unfold binned_chi2, all_cells. rewrite lsum_prod, unit_edges_length. replace (n + 1 - 1)%nat with n by lia.
    apply lsum_ext. intros i I. apply lsum_ext. intros j J. apply in_seq in I. apply in_seq in J. cbn zeta.
    assert (E : grid_prob bvn_prob 0 (unit_edges n) (unit_edges n) (i, j) = p i * p j) by (unfold grid_prob; simpl; rewrite prob_0; reflexivity).
    rewrite E. assert (0 < p i * p j) by (apply Rmult_lt_0_compat; apply p_pos; lia). destruct (Req_EM_T (p i * p j) 0) as [Z|_]; [lra|]. reflexivity.
  Qed.

  Lemma chi2_derive : forall r, -1 < r < 1 -> is_derive (binned_chi2 bvn_prob (unit_edges n) (unit_edges n)) r
    (lsum (fun i => lsum (fun j => 2 * ((P i j r - p i * p j) / (p i * p j)) * K r i j) (seq 0 n)) (seq 0 n)).
  Proof.
    intros r H. apply (is_derive_ext (fun r => lsum (fun i => lsum (fun j => (P i j r - p i * p j) ^ 2 / (p i * p j)) (seq 0 n)) (seq 0 n))); [intros; symmetry; apply chi2_grid|].
    apply (is_derive_lsum _ (fun i r => lsum (fun j => (P i j r - p i * p j) ^ 2 / (p i * p j)) (seq 0 n))). intros i I. apply in_seq in I.
    apply (is_derive_lsum _ (fun j r => (P i j r - p i * p j) ^ 2 / (p i * p j))). intros j J. apply in_seq in J.
    assert (Q : 0 < p i * p j) by (apply Rmult_lt_0_compat; apply p_pos; lia).
    assert (D : is_derive (fun v => (v - p i * p j) ^ 2 / (p i * p j)) (P i j r) (2 * ((P i j r - p i * p j) / (p i * p j)))).
    { auto_derive; [exact Logic.I|]. field. split; (apply Rgt_not_eq; apply p_pos; lia). }
    replace (2 * ((P i j r - p i * p j) / (p i * p j)) * K r i j) with (scal (K r i j) (2 * ((P i j r - p i * p j) / (p i * p j)))) by (unfold scal; simpl; unfold mult; simpl; ring).
    apply (is_derive_comp (fun v => (v - p i * p j) ^ 2 / (p i * p j)) (P i j)); [exact D|]. apply prob_derive. exact H.
  Qed.

  (** the slope is positive *)
  Lemma corner_some : forall r, 0 < r < 1 -> 0 < lsum (fun i => lsum (fun j => / p i * / p j * (K r i j * K r i j)) (seq 0 n)) (seq 0 n).
  Proof.
    intros r H.
    assert (T : lsum (fun i => lsum (fun j => K r i j) (seq 0 n)) (seq 0 n) = bvn_density r 5 5 - bvn_density r (-5) 5 - bvn_density r 5 (-5) + bvn_density r (-5) (-5)).
    { transitivity (lsum (fun i => (bvn_density r (x (S i)) (x n) - bvn_density r (x (S i)) (x 0)) - (bvn_density r (x i) (x n) - bvn_density r (x i) (x 0))) (seq 0 n)).
      - apply lsum_ext. intros i _. rewrite <- (telescope (fun j => bvn_density r (x (S i)) (x j)) n), <- (telescope (fun j => bvn_density r (x i) (x j)) n), <- lsum_minus.
        apply lsum_ext. intros j _. unfold K, corner. ring.
      - rewrite (telescope (fun i => bvn_density r (x i) (x n) - bvn_density r (x i) (x 0)) n). rewrite x_0, x_n. ring. }
    assert (U : 0 < bvn_density r 5 5 - bvn_density r (-5) 5 - bvn_density r 5 (-5) + bvn_density r (-5) (-5)).
    { pose proof (dens_opp r 5 5) as OP. replace (- (5)) with (-5) in OP by lra. rewrite OP. rewrite (dens_sym r 5 (-5)). unfold bvn_density. fold (sig r). pose proof (sig_pos r ltac:(lra)). pose proof PI_RGT_0.
      assert (E : exp (- ((-5) ^ 2 - 2 * r * (-5) * 5 + 5 ^ 2) / (2 * (1 - r ^ 2))) < exp (- (5 ^ 2 - 2 * r * 5 * 5 + 5 ^ 2) / (2 * (1 - r ^ 2)))).
      { apply exp_increasing. apply Rmult_lt_compat_r; [apply Rinv_0_lt_compat; nra|nra]. }
      assert (0 < / (2 * PI * sig r)) by (apply Rinv_0_lt_compat; nra). unfold Rdiv in *. nra. }
    assert (NN : forall i j, In i (seq 0 n) -> In j (seq 0 n) -> 0 <= / p i * / p j * (K r i j * K r i j)).
    { intros i j I J. apply in_seq in I. apply in_seq in J. apply Rmult_le_pos; [|nra]. left. apply Rmult_lt_0_compat; apply Rinv_0_lt_compat; apply p_pos; lia. }
    assert (G : 0 <= lsum (fun i => lsum (fun j => / p i * / p j * (K r i j * K r i j)) (seq 0 n)) (seq 0 n)).
    { apply lsum_nonneg. intros i I. apply lsum_nonneg. intros j J. apply NN; assumption. }
    destruct G as [G|G]; [exact G|exfalso].
    assert (Z : lsum (fun i => lsum (fun j => K r i j) (seq 0 n)) (seq 0 n) = 0).
    { apply lsum_0. intros i I. apply lsum_0. intros j J.
      assert (A : lsum (fun j => / p i * / p j * (K r i j * K r i j)) (seq 0 n) = 0).
      { apply (lsum_zero_elem _ (fun i => lsum (fun j => / p i * / p j * (K r i j * K r i j)) (seq 0 n)) (seq 0 n)); [|symmetry; exact G|exact I].
        intros i' I'. apply lsum_nonneg. intros j' J'. apply NN; assumption. }
      assert (B : / p i * / p j * (K r i j * K r i j) = 0).
      { apply (lsum_zero_elem _ (fun j => / p i * / p j * (K r i j * K r i j)) (seq 0 n)); [|exact A|exact J]. intros j' J'. apply NN; assumption. }
      apply in_seq in I. apply in_seq in J. assert (W : 0 < / p i * / p j) by (apply Rmult_lt_0_compat; apply Rinv_0_lt_compat; apply p_pos; lia).
      apply Rmult_integral in B. destruct B as [B|B]; [exfalso; lra|]. apply Rmult_integral in B. destruct B; assumption. }
    lra.
  Qed.

  Lemma chi2_slope : forall r, 0 < r < 1 -> 0 < lsum (fun i => lsum (fun j => 2 * ((P i j r - p i * p j) / (p i * p j)) * K r i j) (seq 0 n)) (seq 0 n).
  Proof.
    intros r H.
    set (h := fun t => lsum (fun i => lsum (fun j => (P i j t - p i * p j) * (/ p i * / p j * K r i j)) (seq 0 n)) (seq 0 n)).
    set (h' := fun t => lsum (fun i => lsum (fun j => / p i * / p j * (K t i j * K r i j)) (seq 0 n)) (seq 0 n)).
    assert (G : h 0 < h r).
    { apply (grows h h' r); [lra| | |].
      - intros t T. unfold h, h'. apply (is_derive_lsum _ (fun i t => lsum (fun j => (P i j t - p i * p j) * (/ p i * / p j * K r i j)) (seq 0 n))). intros i _.
        apply (is_derive_lsum _ (fun j t => (P i j t - p i * p j) * (/ p i * / p j * K r i j))). intros j _.
        assert (D : is_derive (fun v => (v - p i * p j) * (/ p i * / p j * K r i j)) (P i j t) (/ p i * / p j * K r i j)) by (auto_derive; [exact Logic.I|ring]).
        replace (/ p i * / p j * (K t i j * K r i j)) with (scal (K t i j) (/ p i * / p j * K r i j)) by (unfold scal; simpl; unfold mult; simpl; ring).
        apply (is_derive_comp (fun v => (v - p i * p j) * (/ p i * / p j * K r i j)) (P i j)); [exact D|]. apply prob_derive. lra.
      - intros t T. unfold h'. apply (psd_pair (K t) (K r) (fun i => / p i)); apply corner_psd; lra.
      - unfold h'. apply corner_some. exact H. }
    assert (Z : h 0 = 0).
    { unfold h. apply lsum_0. intros i _. apply lsum_0. intros j _. unfold P. rewrite prob_0. fold (p i) (p j). ring. }
    replace (lsum (fun i => lsum (fun j => 2 * ((P i j r - p i * p j) / (p i * p j)) * K r i j) (seq 0 n)) (seq 0 n)) with (2 * h r); [lra|].
    unfold h. rewrite <- lsum_scal. apply lsum_ext. intros i I. rewrite <- lsum_scal. apply lsum_ext. intros j J. apply in_seq in I. apply in_seq in J.
    pose proof (p_pos i ltac:(lia)). pose proof (p_pos j ltac:(lia)). field. lra.
  Qed.

  Theorem square_regular : chi2_regular bvn_prob (unit_edges n) (unit_edges n).
  Proof.
    set (f := binned_chi2 bvn_prob (unit_edges n) (unit_edges n)).
    assert (C : continuous_on f 0 1) by (apply bvn_chi2_cont; apply unit_edges_rising).
    assert (I : forall u v, 0 < u -> u < v -> v < 1 -> f u < f v).
    { intros u v A B D.
      set (f' := fun r => lsum (fun i => lsum (fun j => 2 * ((P i j r - p i * p j) / (p i * p j)) * K r i j) (seq 0 n)) (seq 0 n)).
      destruct (MVT_gen f u v f') as (z & Z & E).
      - intros t T. rewrite Rmin_left, Rmax_right in T by lra. apply chi2_derive. lra.
      - intros t T. rewrite Rmin_left, Rmax_right in T by lra. apply derivable_continuous_pt. exists (f' t). apply is_derive_Reals. apply chi2_derive. lra.
      - rewrite Rmin_left, Rmax_right in Z by lra. assert (0 < f' z) by (apply chi2_slope; lra). nra. }
    split; [exact C|]. intros a b A AB B. fold f.
    set (u := (2 * a + b) / 3). set (v := (a + 2 * b) / 3). assert (UV : a < u /\ u < v /\ v < b) by (unfold u, v; lra). destruct UV as (U & UV & V).
    pose proof (I u v ltac:(lra) UV ltac:(lra)) as M.
    assert (L : f a <= f u).
    { apply Rnot_lt_le. intros N. destruct (C a ltac:(lra) (f a - f u) ltac:(lra)) as (d & D & W).
      set (y := a + Rmin (d / 2) ((u - a) / 2)). assert (Y : a < y /\ y < u /\ y - a < d).
      { unfold y. assert (0 < Rmin (d / 2) ((u - a) / 2)) by (apply Rmin_pos; lra). pose proof (Rmin_l (d / 2) ((u - a) / 2)). pose proof (Rmin_r (d / 2) ((u - a) / 2)). lra. }
      destruct Y as (Y1 & Y2 & Y3). pose proof (W y ltac:(lra) ltac:(rewrite Rabs_pos_eq by lra; lra)) as W'. apply Rabs_def2 in W'. pose proof (I y u ltac:(lra) Y2 ltac:(lra)). lra. }
    assert (L2 : f v <= f b).
    { apply Rnot_lt_le. intros N. destruct (C b ltac:(lra) (f v - f b) ltac:(lra)) as (d & D & W).
      set (y := b - Rmin (d / 2) ((b - v) / 2)). assert (Y : v < y /\ y < b /\ b - y < d).
      { unfold y. assert (0 < Rmin (d / 2) ((b - v) / 2)) by (apply Rmin_pos; lra). pose proof (Rmin_l (d / 2) ((b - v) / 2)). pose proof (Rmin_r (d / 2) ((b - v) / 2)). lra. }
      destruct Y as (Y1 & Y2 & Y3). pose proof (W y ltac:(lra) ltac:(rewrite Rabs_left1 by lra; lra)) as W'. apply Rabs_def2 in W'. pose proof (I v y ltac:(lra) Y1 ltac:(lra)). lra. }
    lra.
  Qed.
End SquareGrid.
