(** The 2 x c and c x 2 grids: slope of the binned chi2, monotonicity. *)
From Coq Require Import List Reals Lra Lia Psatz ZArith.
From Coquelicot Require Import Coquelicot.
From Verif Require Import Base RSum SpecSolver SpecBiv Gauss SpecBvn CdfProofs BvnProofs BvnProofs2 BvnProofs3 BvnProofs4.
Import ListNotations.
Open Scope R_scope.

Lemma strictly_up : forall f f' : R -> R, continuous_on f 0 1 -> (forall r, 0 < r < 1 -> is_derive f r (f' r)) -> (forall r, 0 < r < 1 -> 0 < f' r) ->
  forall a b, 0 <= a -> a < b -> b <= 1 -> f a < f b.
Proof.
  intros f f' C HD HP.
  assert (I : forall u v, 0 < u -> u < v -> v < 1 -> f u < f v).
  { intros u v A B D. apply (smono_of_derive f f'); [exact B|intros; apply HD; lra|intros; apply HP; lra]. }
  intros a b A AB B.
  set (u := (2 * a + b) / 3). set (v := (a + 2 * b) / 3). assert (UV : a < u /\ u < v /\ v < b) by (unfold u, v; lra). destruct UV as (U & UV & V).
  pose proof (I u v ltac:(lra) UV ltac:(lra)) as M.
  assert (L : f a <= f u).
  { apply Rnot_lt_le. intros N. destruct (C a ltac:(lra) (f a - f u) ltac:(lra)) as (d & D & W).
    set (y := a + Rmin (d / 2) ((u - a) / 2)). assert (Y : a < y /\ y < u /\ y - a < d).
    { unfold y. assert (0 < Rmin (d / 2) ((u - a) / 2)) by (apply Rmin_pos; lra). pose proof (Rmin_l (d / 2) ((u - a) / 2)). pose proof (Rmin_r (d / 2) ((u - a) / 2)). lra. }
    destruct Y as (Y1 & Y2 & Y3). pose proof (W y ltac:(lra) ltac:(rewrite Rabs_pos_eq by lra; lra)) as W'. apply Rabs_def2 in W'. pose proof (I y u ltac:(lra) Y2 ltac:(lra)). lra. }
  assert (L2 : f v <= f b).
  { apply Rnot_lt_le. intros N. destruct (C b ltac:(lra) (f v - f b) ltac:(lra)) as (d & D & W).
    set (y := b - Rmin (d / 2) ((b - v) / 2)). assert (Y : v < y /\ y < b /\ b - y < d).
    { unfold y. assert (0 < Rmin (d / 2) ((b - v) / 2)) by (apply Rmin_pos; lra). pose proof (Rmin_l (d / 2) ((b - v) / 2)). pose proof (Rmin_r (d / 2) ((b - v) / 2)). lra. }
    destruct Y as (Y1 & Y2 & Y3). pose proof (W y ltac:(lra) ltac:(rewrite Rabs_left1 by lra; lra)) as W'. apply Rabs_def2 in W'. pose proof (I v y ltac:(lra) Y1 ltac:(lra)). lra. }
  lra.
Qed.

Lemma lsum_rev : forall (G : nat -> R) m, lsum (fun k => G (m - 1 - k)%nat) (seq 0 m) = lsum G (seq 0 m).
Proof.
  intros G m. induction m as [|m IH]; [reflexivity|]. rewrite (seq_S m 0) at 2. rewrite lsum_app, <- IH. change (seq 0 (S m)) with (0%nat :: seq 1 m). rewrite lsum_cons, <- seq_shift, lsum_map.
  rewrite Rplus_comm. f_equal.
  - apply lsum_ext. intros k K. apply in_seq in K. f_equal. lia.
  - simpl. rewrite Rplus_0_r. f_equal. lia.
Qed.
Lemma lsum_mirror : forall (G : nat -> R) n m, (forall k, (k < m)%nat -> G (n + k)%nat = G (m - 1 - k)%nat) -> lsum G (seq 0 m) = lsum (fun k => G (n + k)%nat) (seq 0 m).
Proof.
  intros G n m H. rewrite <- (lsum_rev G m). apply lsum_ext. intros k K. apply in_seq in K. symmetry. apply H. lia.
Qed.
Lemma lsum_shift : forall (G : nat -> R) n m, lsum G (seq n m) = lsum (fun k => G (n + k)%nat) (seq 0 m).
Proof.
  intros G n m. revert n. induction m as [|m IH]; intros n; [reflexivity|].
  change (seq n (S m)) with (n :: seq (S n) m). change (seq 0 (S m)) with (0%nat :: seq 1 m). rewrite !lsum_cons, <- (seq_shift m 0), lsum_map, IH, Nat.add_0_r. f_equal.
  apply lsum_ext. intros k _. f_equal. lia.
Qed.

Section TwoBins.
  Variable c : nat.
  Hypothesis Hc : (2 <= c)%nat.
  Let x (k : nat) : R := nth k (unit_edges 2) 0.
  Let y (k : nat) : R := nth k (unit_edges c) 0.
  Let p (i : nat) : R := gPhi (x (S i)) - gPhi (x i).
  Let q (j : nat) : R := gPhi (y (S j)) - gPhi (y j).
  Let P (i j : nat) (r : R) : R := bvn_prob r (x i) (y j) (x (S i)) (y (S j)).
  Let K (r : R) (i j : nat) : R := corner r (x i) (y j) (x (S i)) (y (S j)).

  Lemma y_nth : forall k, (k <= c)%nat -> y k = -5 + INR k * (10 / INR c).
  Proof. intros k L. apply unit_edges_nth. exact L. Qed.
  Lemma c_pos : 0 < INR c. Proof. apply lt_0_INR. lia. Qed.
  Lemma y_step : forall j, (j < c)%nat -> y j < y (S j).
  Proof. intros j L. rewrite !y_nth by lia. rewrite S_INR. pose proof c_pos. assert (0 < 10 / INR c) by (apply Rdiv_lt_0_compat; lra). lra. Qed.
  Lemma y_mirror : forall j, (j <= c)%nat -> y (c - j)%nat = - y j.
  Proof. intros j L. rewrite !y_nth by lia. rewrite minus_INR by exact L. pose proof c_pos. field. lra. Qed.
  Lemma xs : x 0 = -5 /\ x 1 = 0 /\ x 2 = 5.
  Proof. unfold x. rewrite !unit_edges_nth by lia. simpl. lra. Qed.
  Lemma ps : p 0 = alpha /\ p 1 = alpha.
  Proof.
    unfold p, alpha. destruct xs as (A & B & C). rewrite A, B, C. replace (-5) with (- (5)) by lra. rewrite gPhi_opp, gPhi_0. lra.
  Qed.
  Lemma p_alpha : forall i, (i < 2)%nat -> p i = alpha.
  Proof. intros i L. destruct ps. destruct i as [|[|i]]; [assumption|assumption|lia]. Qed.
  Lemma q_posj : forall j, (j < c)%nat -> 0 < q j.
  Proof. intros j L. unfold q. pose proof (gPhi_incr _ _ (y_step j L)). lra. Qed.

  Lemma chi2_grid2 : forall r, binned_chi2 bvn_prob (unit_edges 2) (unit_edges c) r = lsum (fun i => lsum (fun j => (P i j r - p i * q j) ^ 2 / (p i * q j)) (seq 0 c)) (seq 0 2).
  Proof.
    intros r. unfold binned_chi2, all_cells. rewrite lsum_prod, !unit_edges_length. replace (2 + 1 - 1)%nat with 2%nat by lia. replace (c + 1 - 1)%nat with c by lia.
    apply lsum_ext. intros i I. apply lsum_ext. intros j J. apply in_seq in I. apply in_seq in J. cbn zeta.
    assert (E : grid_prob bvn_prob 0 (unit_edges 2) (unit_edges c) (i, j) = p i * q j) by (unfold grid_prob; cbn [fst snd]; rewrite prob_0; reflexivity).
    rewrite E. assert (0 < p i * q j) by (apply Rmult_lt_0_compat; [rewrite p_alpha by lia; apply alpha_pos|apply q_posj; lia]). destruct (Req_EM_T (p i * q j) 0) as [Z|_]; [lra|]. reflexivity.
  Qed.
  Lemma chi2_derive2 : forall r, -1 < r < 1 -> is_derive (binned_chi2 bvn_prob (unit_edges 2) (unit_edges c)) r
    (lsum (fun i => lsum (fun j => 2 * ((P i j r - p i * q j) / (p i * q j)) * K r i j) (seq 0 c)) (seq 0 2)).
  Proof.
    intros r H. apply (is_derive_ext (fun r => lsum (fun i => lsum (fun j => (P i j r - p i * q j) ^ 2 / (p i * q j)) (seq 0 c)) (seq 0 2))); [intros; symmetry; apply chi2_grid2|].
    apply (is_derive_lsum _ (fun i r => lsum (fun j => (P i j r - p i * q j) ^ 2 / (p i * q j)) (seq 0 c))). intros i I. apply in_seq in I.
    apply (is_derive_lsum _ (fun j r => (P i j r - p i * q j) ^ 2 / (p i * q j))). intros j J. apply in_seq in J.
    pose proof alpha_pos as AP. pose proof (q_posj j ltac:(lia)) as QP. assert (PP : 0 < p i) by (rewrite p_alpha by lia; exact AP).
    assert (D : is_derive (fun v => (v - p i * q j) ^ 2 / (p i * q j)) (P i j r) (2 * ((P i j r - p i * q j) / (p i * q j)))).
    { auto_derive; [exact Logic.I|]. field. lra. }
    replace (2 * ((P i j r - p i * q j) / (p i * q j)) * K r i j) with (scal (K r i j) (2 * ((P i j r - p i * q j) / (p i * q j)))) by (unfold scal; simpl; unfold mult; simpl; ring).
    apply (is_derive_comp (fun v => (v - p i * q j) ^ 2 / (p i * q j)) (P i j)); [exact D|]. apply prob_derive. exact H.
  Qed.

  Let F (r y1 y2 : R) : R := (U r y1 y2 - alpha * qm y1 y2) / (alpha * qm y1 y2) * (w r y1 - w r y2).
  Let G (r : R) (j : nat) : R := F r (y j) (y (S j)) + F r (- y (S j)) (- y j).
  Lemma slope_form : forall r, lsum (fun i => lsum (fun j => 2 * ((P i j r - p i * q j) / (p i * q j)) * K r i j) (seq 0 c)) (seq 0 2) = 2 * lsum (G r) (seq 0 c).
  Proof.
    intros r. destruct xs as (X0 & X1 & X2). destruct ps as (P0 & P1).
    change (seq 0 2) with [0%nat; 1%nat]. rewrite !lsum_cons, lsum_nil, Rplus_0_r, <- lsum_plus, <- lsum_scal.
    apply lsum_ext. intros j _. unfold G, F. rewrite P0, P1. rewrite Rmult_plus_distr_l, Rplus_comm. f_equal.
    - assert (E1 : P 1 j r = U r (y j) (y (S j))) by (unfold P, U; rewrite X1, X2; reflexivity). rewrite E1. change (qm (y j) (y (S j))) with (q j).
      assert (E2 : K r 1 j = w r (y j) - w r (y (S j))) by (unfold K, corner, w; rewrite X1, X2; ring). rewrite E2. ring.
    - assert (E1 : P 0 j r = U r (- y (S j)) (- y j)).
      { unfold P, U. rewrite X0, X1. rewrite (prob_reflect r (-5)). f_equal; lra. }
      assert (Q : qm (- y (S j)) (- y j) = q j) by (unfold qm, q; rewrite !gPhi_opp; ring). rewrite E1, Q.
      assert (E2 : K r 0 j = w r (- y (S j)) - w r (- y j)).
      { unfold K, corner, w. rewrite X0, X1, !d0_even. replace (-5) with (- (5)) by lra.
        assert (O : forall t, bvn_density r (- (5)) t = bvn_density r 5 (- t)) by (intros t; rewrite <- (dens_opp r 5 (- t)), Ropp_involutive; reflexivity). rewrite !O. ring. }
      rewrite E2. ring.
  Qed.
  Lemma G_sym : forall r j, (j < c)%nat -> G r (c - 1 - j) = G r j.
  Proof.
    intros r j L. unfold G. replace (S (c - 1 - j)) with (c - j)%nat by lia. replace (c - 1 - j)%nat with (c - S j)%nat by lia. rewrite !y_mirror by lia. rewrite !Ropp_involutive. ring.
  Qed.
  Lemma G_term : forall r y1 y2, y1 < y2 -> F r y1 y2 + F r (- y2) (- y1) =
    / alpha * (((U r y1 y2 - alpha * qm y1 y2) * (w r y1 - w r y2) + (alpha * qm y1 y2 - U r (- y2) (- y1)) * (w r (- y1) - w r (- y2))) / qm y1 y2).
  Proof.
    intros r y1 y2 L. unfold F. assert (Q : qm (- y2) (- y1) = qm y1 y2) by (unfold qm; rewrite !gPhi_opp; ring). rewrite Q.
    pose proof (qm_pos y1 y2 L). pose proof alpha_pos. field. lra.
  Qed.
  Lemma upper_half : forall r m e0, 0 < r < 1 -> (1 <= m)%nat -> (m <= c)%nat -> e0 = 0 \/ e0 = 10 / INR c / 2 -> e0 + INR m * (10 / INR c) = 5 -> 0 < lsum (fun k => G r (c - m + k)) (seq 0 m).
  Proof.
    intros r m e0 H M1 MC E0 EE. pose proof c_pos as CP. assert (HP : 0 < 10 / INR c) by (apply Rdiv_lt_0_compat; lra).
    pose proof (half_sum r (10 / INR c) e0 m H HP M1 E0 EE) as HS. cbv beta zeta in HS. pose proof alpha_pos as AP.
    assert (EQ : lsum (fun k => G r (c - m + k)) (seq 0 m) = / alpha * lsum (fun k => ((U r (e0 + INR k * (10 / INR c)) (e0 + INR (S k) * (10 / INR c)) - alpha * qm (e0 + INR k * (10 / INR c)) (e0 + INR (S k) * (10 / INR c))) *
      (w r (e0 + INR k * (10 / INR c)) - w r (e0 + INR (S k) * (10 / INR c))) +
      (alpha * qm (e0 + INR k * (10 / INR c)) (e0 + INR (S k) * (10 / INR c)) - U r (- (e0 + INR (S k) * (10 / INR c))) (- (e0 + INR k * (10 / INR c)))) *
      (w r (- (e0 + INR k * (10 / INR c))) - w r (- (e0 + INR (S k) * (10 / INR c))))) / qm (e0 + INR k * (10 / INR c)) (e0 + INR (S k) * (10 / INR c))) (seq 0 m)).
    { rewrite <- lsum_scal. apply lsum_ext. intros k K0. apply in_seq in K0.
      assert (Y : forall i, (i <= m)%nat -> y (c - m + i) = e0 + INR i * (10 / INR c)).
      { intros i I. rewrite y_nth by lia. rewrite plus_INR, minus_INR by lia. replace e0 with (5 - INR m * (10 / INR c)) by lra. field. lra. }
      unfold G. replace (S (c - m + k)) with (c - m + S k)%nat by lia. rewrite !Y by lia. apply G_term. rewrite S_INR. lra. }
    rewrite EQ. apply Rmult_lt_0_compat; [apply Rinv_0_lt_compat; exact AP|exact HS].
  Qed.
  Lemma slope_pos2 : forall r, 0 < r < 1 -> 0 < lsum (G r) (seq 0 c).
  Proof.
    intros r H. pose proof c_pos as CP. destruct (Nat.Even_or_Odd c) as [[m E]|[m E]].
    - assert (U1 : 0 < lsum (fun k => G r (c - m + k)) (seq 0 m)).
      { apply (upper_half r m 0 H); [lia|lia|left; reflexivity|]. rewrite E, mult_INR. simpl (INR 2). field. apply not_0_INR. lia. }
      replace (lsum (G r) (seq 0 c)) with (2 * lsum (fun k => G r (c - m + k)) (seq 0 m)); [lra|].
      replace (seq 0 c) with (seq 0 m ++ seq m m) by (transitivity (seq 0 (m + m)); [symmetry; exact (seq_app m m 0)|f_equal; lia]). rewrite lsum_app, (lsum_shift (G r) m m).
      rewrite (lsum_mirror (G r) m m). { replace (c - m)%nat with m by lia. ring. }
      intros k L. rewrite <- (G_sym r (m - 1 - k)) by lia. f_equal. lia.
    - assert (U1 : 0 < lsum (fun k => G r (c - m + k)) (seq 0 m)).
      { apply (upper_half r m (10 / INR c / 2) H); [lia|lia|right; reflexivity|]. assert (EI : INR c = 2 * INR m + 1) by (rewrite E, plus_INR, mult_INR; simpl; ring). rewrite EI in *. field. lra. }
      assert (MID : 0 <= G r m).
      { assert (YM : y m = - (10 / INR c / 2)).
        { rewrite y_nth by lia. assert (EI : INR c = 2 * INR m + 1) by (rewrite E, plus_INR, mult_INR; simpl; ring). rewrite EI in *. field. lra. }
        assert (YS : y (S m) = 10 / INR c / 2) by (replace (S m) with (c - m)%nat by lia; rewrite y_mirror by lia; rewrite YM; ring).
        assert (HP : 0 < 10 / INR c) by (apply Rdiv_lt_0_compat; lra).
        unfold G. rewrite YM, YS, Ropp_involutive. set (h := 10 / INR c / 2) in *. unfold F. pose proof (middle_bin r h H ltac:(unfold h; lra)) as MB.
        assert (Q : 0 < / (alpha * qm (- h) h)) by (apply Rinv_0_lt_compat; apply Rmult_lt_0_compat; [apply alpha_pos|apply qm_pos; unfold h; lra]).
        unfold Rdiv. replace ((U r (- h) h - alpha * qm (- h) h) * / (alpha * qm (- h) h) * (w r (- h) - w r h) + (U r (- h) h - alpha * qm (- h) h) * / (alpha * qm (- h) h) * (w r (- h) - w r h))
          with (2 * ((U r (- h) h - alpha * qm (- h) h) * (w r (- h) - w r h)) * / (alpha * qm (- h) h)) by ring. apply Rmult_le_pos; lra. }
      replace (lsum (G r) (seq 0 c)) with (2 * lsum (fun k => G r (c - m + k)) (seq 0 m) + G r m); [lra|].
      replace (seq 0 c) with (seq 0 m ++ (m :: seq (S m) m)).
      2:{ change (m :: seq (S m) m) with (seq m (S m)). transitivity (seq 0 (m + S m)); [symmetry; exact (seq_app m (S m) 0)|f_equal; lia]. }
      rewrite lsum_app, lsum_cons, (lsum_shift (G r) (S m) m). rewrite (lsum_mirror (G r) (S m) m). { replace (c - m)%nat with (S m) by lia. ring. }
      intros k L. rewrite <- (G_sym r (m - 1 - k)) by lia. f_equal. lia.
  Qed.
  Theorem two_regular : chi2_regular bvn_prob (unit_edges 2) (unit_edges c).
  Proof.
    assert (C : continuous_on (binned_chi2 bvn_prob (unit_edges 2) (unit_edges c)) 0 1) by (apply bvn_chi2_cont; apply unit_edges_rising).
    split; [exact C|]. apply (strictly_up _ (fun r => 2 * lsum (G r) (seq 0 c)) C).
    - intros r H. rewrite <- slope_form. apply chi2_derive2. lra.
    - intros r H. pose proof (slope_pos2 r H). lra.
  Qed.
End TwoBins.

Lemma binned_swap : forall sx sy r, binned_chi2 bvn_prob sx sy r = binned_chi2 bvn_prob sy sx r.
Proof.
  intros sx sy r. unfold binned_chi2, all_cells. rewrite !lsum_prod, lsum_swap. apply lsum_ext. intros j _. apply lsum_ext. intros i _. cbn zeta.
  unfold grid_prob. cbn [fst snd]. rewrite !(prob_swap _ (nth i sx 0)). reflexivity.
Qed.
Theorem two_regular_swap : forall c, (2 <= c)%nat -> chi2_regular bvn_prob (unit_edges c) (unit_edges 2).
Proof.
  intros c H. destruct (two_regular c H) as [A B]. split.
  - apply bvn_chi2_cont; apply unit_edges_rising.
  - intros x y X L Y. rewrite !(binned_swap (unit_edges c)). apply B; assumption.
Qed.
