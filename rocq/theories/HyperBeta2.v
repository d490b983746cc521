(** How far a convergent of the fraction is from its limit. *)
From Coq Require Import Reals Lra Lia Psatz List.
From Coquelicot Require Import Coquelicot.
From Verif Require Import Base RSum StatsModel BetaModel SpecBeta SpecGauss BetaProofs CdfProofs HyperBeta.
Open Scope R_scope.

Section Error.
Variables a b x : R.
Hypothesis Dom : cf_domain a b x.

Notation Q := (Qn a b x).
Notation P := (Pn a b x).
Notation C := (convergent a b x).
Notation V := (vbeta a b x).
Notation t := (tv a b x).

Lemma dom_parts : 0 < a /\ 0 < b /\ 0 < x < 1.
Proof. destruct (domain_x1 _ _ _ Dom) as [X _]. destruct Dom as (A & B & X0 & _). lra. Qed.
Lemma V_ge1 : 1 <= V.
Proof. destruct dom_parts as (A & B & X). rewrite <- od_0. apply od_ge1; lra. Qed.
Lemma t_pos : forall k, 0 < t k.
Proof. intros k. destruct dom_parts as (A & B & X). apply tv_pos; lra. Qed.
Lemma t_rec : forall k, t k = 1 + coeff a b x (S k) / t (S k).
Proof. intros k. destruct dom_parts as (A & B & X). apply tv_rec; lra. Qed.
Lemma t_lim : forall k, is_lim_seq (cf_tail a b x k) (t k).
Proof. intros k. destruct dom_parts as (A & B & X). apply tail_limit; lra. Qed.
Lemma t_0 : t 0 = 1 / V.
Proof. rewrite tv_0, od_0. reflexivity. Qed.

Lemma Q_pos : forall n, 0 < Q n.
Proof. intros [|n]; [unfold Qn; simpl; lra|]. apply (PQ a b x Dom n). Qed.
Lemma conv_eq : forall n, C n = P (S n) / Q (S n).
Proof. intros n. symmetry. apply (PQ a b x Dom n). Qed.

Definition De (n : nat) : R := V * Q n - P n.
Lemma De_step : forall n, De (S n) = (1 - t n) * De n.
Proof.
  induction n as [|n IH].
  - unfold De, Qn, Pn. cbn [seqs fst]. rewrite t_0. pose proof V_ge1. field. lra.
  - assert (R2 : De (S (S n)) = De (S n) + coeff a b x (S n) * De n) by (unfold De; rewrite Qn_rec, Pn_rec; ring).
    rewrite R2, IH. rewrite (t_rec n). pose proof (t_pos (S n)). field. lra.
Qed.
Definition Rr (n : nat) : R := Q (S n) + (t n - 1) * Q n.
Lemma Rr_pos : forall n, 0 < Rr n.
Proof.
  induction n as [|n IH].
  - unfold Rr, Qn. cbn [seqs fst]. pose proof (t_pos 0). lra.
  - assert (E : Rr (S n) = t (S n) * Rr n).
    { unfold Rr. rewrite Qn_rec. rewrite (t_rec n). pose proof (t_pos (S n)). field. lra. }
    rewrite E. apply Rmult_lt_0_compat; [apply t_pos|exact IH].
Qed.
Lemma err_De : forall n, V - C n = De (S n) / Q (S n).
Proof. intros n. rewrite conv_eq. unfold De. pose proof (Q_pos (S n)). field. lra. Qed.
Lemma diff_De : forall n, C (S n) - C n = De (S n) * Rr (S n) / (Q (S n) * Q (S (S n))).
Proof.
  intros n. replace (C (S n) - C n) with ((V - C n) - (V - C (S n))) by ring. rewrite !err_De, (De_step (S n)). unfold Rr.
  pose proof (Q_pos (S n)). pose proof (Q_pos (S (S n))). field. lra.
Qed.
Lemma err_diff : forall n, (V - C (S n)) * Rr (S n) = (1 - t (S n)) * Q (S n) * (C (S n) - C n).
Proof.
  intros n. rewrite err_De, diff_De, (De_step (S n)). pose proof (Q_pos (S n)). pose proof (Q_pos (S (S n))). field. lra.
Qed.

(** even tails are below one *)
Lemma t_even_lt1 : forall m, t (2 * m) < 1.
Proof.
  intros m. rewrite t_rec, coeff_odd. destruct dom_parts as (A & B & X). pose proof (d_odd_neg a b x (INR m) A B ltac:(lra) (pos_INR m)) as N.
  pose proof (neg_div _ _ N (t_pos (S (2 * m)))). lra.
Qed.
(** C_{2m+1}, C_{2m+2}, C_{2m+3} are in order *)
Lemma same_side : forall m, Rabs (C (2 * m + 3) - C (2 * m + 2)) <= Rabs (C (2 * m + 3) - C (2 * m + 1)).
Proof.
  intros m. replace (2 * m + 3)%nat with (S (S (2 * m + 1))) by lia. replace (2 * m + 2)%nat with (S (2 * m + 1)) by lia.
  set (n := (2 * m + 1)%nat). pose proof (diff_De n) as E1. pose proof (diff_De (S n)) as E2. rewrite (De_step (S n)) in E2.
  pose proof (t_even_lt1 (S m)) as T. replace (2 * S m)%nat with (S n) in T by (unfold n; lia).
  pose proof (Rr_pos (S n)). pose proof (Rr_pos (S (S n))). pose proof (Q_pos (S n)). pose proof (Q_pos (S (S n))). pose proof (Q_pos (S (S (S n)))).
  set (D := De (S n)) in *. set (u := Rr (S n) / (Q (S n) * Q (S (S n)))). set (v := (1 - t (S n)) * Rr (S (S n)) / (Q (S (S n)) * Q (S (S (S n))))).
  assert (U : 0 < u) by (unfold u; apply Rdiv_lt_0_compat; [assumption|apply Rmult_lt_0_compat; assumption]).
  assert (W : 0 < v) by (unfold v; apply Rdiv_lt_0_compat; apply Rmult_lt_0_compat; try assumption; lra).
  replace (C (S (S n)) - C n) with (D * (u + v)).
  - replace (C (S (S n)) - C (S n)) with (D * v) by (rewrite E2; unfold v; field; lra). rewrite !Rabs_mult. apply Rmult_le_compat_l; [apply Rabs_pos|]. rewrite !Rabs_pos_eq by lra. lra.
  - replace (C (S (S n)) - C n) with ((C (S (S n)) - C (S n)) + (C (S n) - C n)) by ring. rewrite E1, E2. unfold u, v. field. lra.
Qed.

(** parameters of the coefficients *)
Definition ge (m : nat) : R := INR m / (a + 2 * INR m).
Definition go (m : nat) : R := (a + b + INR m) / (a + 2 * INR m + 1).
Lemma d_odd_g : forall m, - d_odd a b x (INR m) = x * (1 - ge m) * go m.
Proof. intros m. destruct dom_parts as (A & B & X). pose proof (pos_INR m). unfold d_odd, ge, go. field. lra. Qed.
Lemma d_even_g : forall m, - d_even a b x (INR (S m)) = x * (1 - go m) * ge (S m).
Proof. intros m. destruct dom_parts as (A & B & X). pose proof (pos_INR m). unfold d_even, ge, go. rewrite S_INR. field. lra. Qed.
Lemma ge_range : forall m, 0 <= ge m <= 1.
Proof.
  intros m. destruct dom_parts as (A & B & X). pose proof (pos_INR m) as M. unfold ge. split.
  - apply Rmult_le_pos; [exact M|left; apply Rinv_0_lt_compat; lra].
  - apply Rmult_le_reg_r with (a + 2 * INR m); [lra|]. unfold Rdiv. rewrite Rmult_assoc, Rinv_l by lra. lra.
Qed.
Lemma go_range : forall m, b <= INR m + 1 -> 0 <= go m <= 1.
Proof.
  intros m BM. destruct dom_parts as (A & B & X). pose proof (pos_INR m) as M. unfold go.
  assert (E : (a + b + INR m) / (a + 2 * INR m + 1) * (a + 2 * INR m + 1) = a + b + INR m) by (field; lra). set (q := (a + b + INR m) / (a + 2 * INR m + 1)) in *.
  split; apply Rmult_le_reg_r with (a + 2 * INR m + 1); lra || nra.
Qed.

Lemma chain_step : forall y g g' q0 q1, 0 <= y <= 1 -> 0 <= g <= 1 -> 0 <= g' -> 0 < q0 -> (1 - y * g) * q0 <= q1 -> (1 - y * g') * q1 <= q1 + - (y * (1 - g) * g') * q0.
Proof.
  intros y g g' q0 q1 Y G G' Q0 H. assert (H1 : 0 <= (1 - y) * g * q0) by (apply Rmult_le_pos; [apply Rmult_le_pos; lra|lra]).
  assert (H2 : (1 - g) * q0 <= q1) by lra. assert (H3 : 0 <= y * g') by (apply Rmult_le_pos; lra).
  assert (H4 : y * g' * ((1 - g) * q0) <= y * g' * q1) by (apply Rmult_le_compat_l; assumption). lra.
Qed.
Lemma Q_ratio : forall m, (1 - x * ge m) * Q (2 * m) <= Q (S (2 * m)) /\ (b <= INR m + 1 -> (1 - x * go m) * Q (S (2 * m)) <= Q (S (S (2 * m)))).
Proof.
  destruct dom_parts as (A & B & X). induction m as [|m IH].
  - assert (E0 : (1 - x * ge 0) * Q (2 * 0) <= Q (S (2 * 0))) by (unfold ge, Qn; simpl; unfold Rdiv; rewrite Rmult_0_l, Rmult_0_r; lra).
    split; [exact E0|]. intros BM. rewrite Qn_rec, coeff_odd. pose proof (d_odd_g 0) as D. pose proof (ge_range 0) as G. pose proof (go_range 0 BM) as H. pose proof (Q_pos (2 * 0)) as QP.
    replace (d_odd a b x (INR 0)) with (- (x * (1 - ge 0) * go 0)) by lra.
    apply chain_step; lra.
  - destruct IH as [_ IH]. replace (2 * S m)%nat with (S (S (2 * m))) by lia.
    assert (E0 : (1 - x * ge (S m)) * Q (S (S (2 * m))) <= Q (S (S (S (2 * m))))).
    { rewrite (Qn_rec a b x (S (2 * m))). replace (S (S (2 * m))) with (2 * S m)%nat at 3 by lia. rewrite coeff_even. pose proof (Q_pos (S (2 * m))) as QP. pose proof (Q_pos (S (S (2 * m)))) as QP'. pose proof (ge_range (S m)) as G.
      destruct (Rle_or_lt b (INR m + 1)) as [L|L].
      - specialize (IH L). pose proof (go_range m L) as H. pose proof (d_even_g m) as D. replace (d_even a b x (INR (S m))) with (- (x * (1 - go m) * ge (S m))) by lra.
        apply chain_step; lra.
      - assert (0 <= d_even a b x (INR (S m))).
        { unfold d_even. rewrite S_INR. pose proof (pos_INR m). apply Rmult_le_pos; [apply Rmult_le_pos; [apply Rmult_le_pos; lra|lra]|]. left. apply Rinv_0_lt_compat, Rmult_lt_0_compat; lra. }
        assert (0 <= x * ge (S m) * Q (S (S (2 * m)))) by (apply Rmult_le_pos; [apply Rmult_le_pos; lra|lra]). nra. }
    split; [exact E0|]. intros BM. rewrite (Qn_rec a b x (S (S (2 * m)))). replace (S (S (S (2 * m)))) with (S (2 * S m)) at 3 by lia. rewrite coeff_odd.
    pose proof (d_odd_g (S m)) as D. pose proof (ge_range (S m)) as G. pose proof (go_range (S m) BM) as H. pose proof (Q_pos (S (S (2 * m)))) as QP.
    replace (d_odd a b x (INR (S m))) with (- (x * (1 - ge (S m)) * go (S m))) by lra.
    apply chain_step; lra.
Qed.

Lemma t_even_low : forall m, b <= INR m + 1 -> ge m <= t (2 * m).
Proof.
  intros m BM. apply (is_lim_seq_le (fun _ => ge m) (cf_tail a b x (2 * m)) (ge m) (t (2 * m))); [|apply is_lim_seq_const|apply t_lim].
  intros n. destruct (tails_ok a b x Dom n m) as [[_ H] _]. apply H. exact BM.
Qed.
Lemma t_odd_low : forall m, b <= INR m + 1 -> 1 - x * (1 - go m) <= t (S (2 * m)).
Proof.
  intros m BM. rewrite t_rec. replace (S (S (2 * m))) with (2 * S m)%nat by lia. rewrite coeff_even. destruct dom_parts as (A & B & X).
  pose proof (t_even_low (S m) ltac:(rewrite S_INR; lra)) as L. pose proof (go_range m BM) as G. pose proof (d_even_g m) as D. pose proof (t_pos (2 * S m)) as T.
  replace (d_even a b x (INR (S m))) with (- (x * (1 - go m) * ge (S m))) by lra.
  assert (x * (1 - go m) * ge (S m) / t (2 * S m) <= x * (1 - go m)); [|unfold Rdiv in *; lra].
  apply Rmult_le_reg_r with (t (2 * S m)); [exact T|]. replace (x * (1 - go m) * ge (S m) / t (2 * S m) * t (2 * S m)) with (x * (1 - go m) * ge (S m)) by (field; lra).
  apply Rmult_le_compat_l; [apply Rmult_le_pos; lra|exact L].
Qed.

(** the error of an odd convergent against its last step *)
Definition slow : R := Rmax 1 (x / (1 - x)).
Lemma err_step : forall m, Rabs (C (2 * m + 1) - V) <= slow * Rabs (C (2 * m + 1) - C (2 * m)).
Proof.
  intros m. replace (2 * m + 1)%nat with (S (2 * m)) by lia. destruct dom_parts as (A & B & X). pose proof (err_diff (2 * m)) as E. pose proof (Rr_pos (S (2 * m))) as RP. pose proof (Q_pos (S (2 * m))) as QP.
  rewrite (Rabs_minus_sym _ V). apply Rmult_le_reg_r with (Rr (S (2 * m))); [exact RP|]. rewrite <- (Rabs_pos_eq (Rr (S (2 * m)))) at 1 by lra. rewrite <- Rabs_mult, E, Rabs_mult.
  rewrite (Rmult_comm slow), Rmult_assoc, (Rmult_comm (Rabs (_ * _))). apply Rmult_le_compat_l; [apply Rabs_pos|].
  rewrite Rabs_mult, (Rabs_pos_eq (Q _)) by lra. set (w := 1 - t (S (2 * m))). assert (RE : Rr (S (2 * m)) = Q (S (S (2 * m))) - w * Q (S (2 * m))) by (unfold Rr, w; ring).
  assert (S1 : 1 <= slow) by apply Rmax_l. destruct (Rle_or_lt w 0) as [W|W].
  - rewrite Rabs_left1 by exact W. pose proof (Q_pos (S (S (2 * m)))). nra.
  - rewrite Rabs_pos_eq by lra. destruct (Rle_or_lt b (INR m + 1)) as [L|L].
    + pose proof (t_odd_low m L) as TL. pose proof (go_range m L) as G1. destruct (Q_ratio m) as [_ QR]. specialize (QR L). set (q := Q (S (2 * m))) in *. set (g := go m) in *.
      assert (W2 : w <= x * (1 - g)) by (unfold w; lra). assert (S2 : x / (1 - x) <= slow) by apply Rmax_r.
      assert (S3 : x <= slow * (1 - x)).
      { apply Rle_trans with (x / (1 - x) * (1 - x)); [right; field; lra|apply Rmult_le_compat_r; lra]. }
      assert (K1 : (1 - x) * q <= Rr (S (2 * m))) by (rewrite RE; nra). assert (K2 : w <= x) by nra.
      assert (slow * ((1 - x) * q) <= slow * Rr (S (2 * m))) by (apply Rmult_le_compat_l; lra). nra.
    + exfalso. assert (0 <= - w); [|lra]. unfold w. rewrite t_rec. replace (S (S (2 * m))) with (2 * S m)%nat by lia. rewrite coeff_even.
      assert (0 <= d_even a b x (INR (S m)) / t (2 * S m)); [|lra]. unfold d_even. rewrite S_INR. pose proof (pos_INR m). apply Rmult_le_pos; [|left; apply Rinv_0_lt_compat, t_pos].
      apply Rmult_le_pos; [apply Rmult_le_pos; [apply Rmult_le_pos; lra|lra]|]. left. apply Rinv_0_lt_compat, Rmult_lt_0_compat; lra.
Qed.

Lemma slow_ge1 : 1 <= slow. Proof. apply Rmax_l. Qed.
Lemma first_low : b <= 1 -> Rabs (C 3 - C 2) <= Rabs (C 3 - 1).
Proof.
  intros B1. pose proof (diff_De 0) as E1. pose proof (diff_De 1) as E2. pose proof (diff_De 2) as E3. pose proof (De_step 1) as D2. pose proof (De_step 2) as D3.
  assert (C0 : C 0 = 1) by (unfold convergent; simpl; field).
  assert (P1 : 0 <= De 1) by (unfold De, Qn, Pn; cbn [seqs fst]; pose proof V_ge1; lra).
  assert (T1 : 0 <= 1 - t 1).
  { rewrite t_rec. rewrite (coeff_even a b x 1 : coeff a b x 2 = _). destruct dom_parts as (A & B & X). pose proof (d_even_g 0) as D. pose proof (go_range 0 ltac:(simpl; lra)) as G. pose proof (ge_range 1) as G'.
    pose proof (t_pos 2) as T. assert (0 <= - d_even a b x (INR 1) / t 2); [|unfold Rdiv in *; lra]. apply Rmult_le_pos; [|left; apply Rinv_0_lt_compat; exact T]. rewrite D. apply Rmult_le_pos; [apply Rmult_le_pos; lra|lra]. }
  pose proof (t_even_lt1 1) as T2. simpl Nat.mul in T2.
  assert (P2 : 0 <= De 2) by (rewrite D2; apply Rmult_le_pos; lra). assert (P3 : 0 <= De 3) by (rewrite D3; apply Rmult_le_pos; lra).
  assert (G : forall n, 0 <= De (S n) -> 0 <= De (S n) * Rr (S n) / (Q (S n) * Q (S (S n)))).
  { intros n Z. apply Rmult_le_pos; [apply Rmult_le_pos; [exact Z|left; apply Rr_pos]|left; apply Rinv_0_lt_compat, Rmult_lt_0_compat; apply Q_pos]. }
  pose proof (G 0%nat P1). pose proof (G 1%nat P2). pose proof (G 2%nat P3). rewrite !Rabs_pos_eq; lra.
Qed.
Lemma first_high : forall EPS, 1 < b -> EPS <= 1 / 4 -> close_enough EPS 1 (C 3) -> Rabs (C 3 - C 2) <= Rabs (C 3 - 1).
Proof.
  intros EPS B1 HE HC. unfold close_enough in HC. pose proof (convergent_ge1 a b x Dom 3) as C1. pose proof (convergent_ge1 a b x Dom 2) as C2. destruct dom_parts as (A & B & X).
  assert (XD : x * (a + b + 2) <= a + 1) by apply (domain_x1 _ _ _ Dom).
  assert (E3 : C 3 = 1 / (1 + coeff a b x 1 / (1 + coeff a b x 2 / (1 + coeff a b x 3)))) by (unfold convergent; cbn [cf_tail]; rewrite Rdiv_1; reflexivity).
  assert (E2 : C 2 = 1 / (1 + coeff a b x 1 / (1 + coeff a b x 2))) by (unfold convergent; cbn [cf_tail]; rewrite Rdiv_1; reflexivity).
  rewrite (coeff_odd a b x 0 : coeff a b x 1 = _), (coeff_even a b x 1 : coeff a b x 2 = _) in E2, E3. rewrite (coeff_odd a b x 1 : coeff a b x 3 = _) in E3.
  pose proof (d_odd_neg a b x (INR 0) A B ltac:(lra) (pos_INR 0)) as N1. set (dl := - d_odd a b x (INR 0)) in *. set (d2 := d_even a b x (INR 1)) in *. set (d3 := d_odd a b x (INR 1)) in *.
  assert (H2 : 0 < d2 <= 1 / (a + 2)).
  { unfold d2, d_even. simpl INR. split.
    - apply Rdiv_lt_0_compat; [apply Rmult_lt_0_compat; lra|apply Rmult_lt_0_compat; lra].
    - apply Rmult_le_reg_r with ((a + 1) * (a + 2)); [apply Rmult_lt_0_compat; lra|]. replace (1 / (a + 2) * ((a + 1) * (a + 2))) with (a + 1) by (field; lra).
      replace (1 * (b - 1) * x / ((a + 2 * 1 - 1) * (a + 2 * 1)) * ((a + 1) * (a + 2))) with ((b - 1) * x) by (field; lra). nra. }
  assert (H3 : (3 * a + 5) / ((a + 2) * (a + 3)) <= 1 + d3).
  { unfold d3, d_odd. simpl INR. apply Rmult_le_reg_r with ((a + 2) * (a + 3)); [apply Rmult_lt_0_compat; lra|]. replace ((3 * a + 5) / ((a + 2) * (a + 3)) * ((a + 2) * (a + 3))) with (3 * a + 5) by (field; lra).
    replace ((1 + - ((a + 1) * (a + b + 1) * x) / ((a + 2 * 1) * (a + 2 * 1 + 1))) * ((a + 2) * (a + 3))) with ((a + 2) * (a + 3) - (a + 1) * (a + b + 1) * x) by (field; lra).
    assert ((a + b + 1) * x <= a + 1) by nra. nra. }
  assert (P3 : 0 < (3 * a + 5) / ((a + 2) * (a + 3))) by (apply Rdiv_lt_0_compat; [lra|apply Rmult_lt_0_compat; lra]).
  assert (H4 : d2 / (1 + d3) <= 3 / 5).
  { apply Rmult_le_reg_r with (1 + d3); [lra|]. replace (d2 / (1 + d3) * (1 + d3)) with d2 by (field; lra). apply Rle_trans with (1 / (a + 2)); [lra|]. apply Rle_trans with (3 / 5 * ((3 * a + 5) / ((a + 2) * (a + 3)))); [|apply Rmult_le_compat_l; lra].
    apply Rmult_le_reg_r with ((a + 2) * (a + 3)); [apply Rmult_lt_0_compat; lra|]. replace (1 / (a + 2) * ((a + 2) * (a + 3))) with (a + 3) by (field; lra).
    replace (3 / 5 * ((3 * a + 5) / ((a + 2) * (a + 3))) * ((a + 2) * (a + 3))) with (3 / 5 * (3 * a + 5)) by (field; lra). lra. }
  assert (D3 : d3 <= 0) by (left; apply (d_odd_neg a b x (INR 1) A B ltac:(lra) (pos_INR 1))).
  assert (H5 : d2 <= d2 / (1 + d3)).
  { apply Rmult_le_reg_r with (1 + d3); [lra|]. replace (d2 / (1 + d3) * (1 + d3)) with d2 by (field; lra). nra. }
  set (D := 1 + d2 / (1 + d3)) in *. set (u := dl / (1 + d2)). set (v := dl / D).
  assert (EU : 1 + d_odd a b x (INR 0) / (1 + d2) = 1 - u) by (unfold u, dl; field; lra). rewrite EU in E2.
  assert (EV : 1 + d_odd a b x (INR 0) / D = 1 - v) by (unfold v, dl; field; unfold D; lra). rewrite EV in E3.
  assert (DP : 0 < D) by (unfold D; lra). assert (UD : u * (1 + d2) = dl) by (unfold u; field; lra). assert (VD : v * D = dl) by (unfold v; field; lra).
  assert (U0 : 0 < u) by (apply Rdiv_lt_0_compat; unfold dl in *; lra). assert (V0 : 0 < v) by (apply Rdiv_lt_0_compat; unfold dl in *; lra).
  assert (U1 : u < 1).
  { destruct (Rlt_or_le u 1) as [L|L]; [exact L|exfalso]. destruct (Req_dec u 1) as [E|E]; [rewrite E, Rminus_eq_0 in E2; unfold Rdiv in E2; rewrite Rinv_0 in E2; lra|].
    assert (/ (1 - u) < 0) by (apply Rinv_lt_0_compat; lra). unfold Rdiv in E2. lra. }
  assert (VU : v <= u) by (unfold D in VD; nra).
  assert (CV : C 3 * (1 - v) = 1) by (rewrite E3; field; lra). assert (CU : C 2 * (1 - u) = 1) by (rewrite E2; field; lra).
  rewrite Rabs_pos_eq in HC by lra. rewrite Rabs_pos_eq in HC by lra.
  assert (V4 : v < 1 / 4) by nra.
  assert (K : u * (1 + v) <= 2 * v).
  { apply Rmult_le_reg_r with (1 + d2); [lra|]. replace (u * (1 + v) * (1 + d2)) with (v * (D * (1 + v))) by (rewrite <- UD in VD; rewrite <- Rmult_assoc, VD; ring).
    replace (2 * v * (1 + d2)) with (v * (2 * (1 + d2))) by ring. apply Rmult_le_compat_l; [lra|]. unfold D in *. nra. }
  assert (L1 : C 3 <= C 2).
  { rewrite E2, E3. unfold Rdiv. rewrite !Rmult_1_l. apply Rinv_le_contravar; lra. }
  rewrite Rabs_left1 by lra. rewrite Rabs_pos_eq by lra.
  assert (C 2 + 1 <= 2 * C 3); [|lra]. apply Rmult_le_reg_r with ((1 - u) * (1 - v)); [apply Rmult_lt_0_compat; lra|].
  replace ((C 2 + 1) * ((1 - u) * (1 - v))) with ((C 2 * (1 - u)) * (1 - v) + (1 - u) * (1 - v)) by ring. replace (2 * C 3 * ((1 - u) * (1 - v))) with (2 * (C 3 * (1 - v)) * (1 - u)) by ring. rewrite CU, CV. nra.
Qed.

Lemma err_iterate : forall EPS m, (1 <= m)%nat -> EPS <= 1 / 4 -> close_enough EPS (iterate a b x (m - 1)) (iterate a b x m) ->
  Rabs (iterate a b x m - V) <= slow * (EPS * iterate a b x m).
Proof.
  intros EPS m M HE HC. destruct m as [|m]; [lia|]. replace (S m - 1)%nat with m in HC by lia.
  assert (I : iterate a b x (S m) = C (2 * S m + 1)) by reflexivity. pose proof (convergent_ge1 a b x Dom (2 * S m + 1)) as G1.
  assert (L : Rabs (C (2 * S m + 1) - C (2 * S m)) <= Rabs (iterate a b x (S m) - iterate a b x m)).
  { rewrite I. destruct m as [|m].
    - change (iterate a b x 0) with 1 in HC |- *. change (2 * 1 + 1)%nat with 3%nat. change (2 * 1)%nat with 2%nat. destruct (Rle_or_lt b 1) as [B|B]; [apply first_low, B|apply (first_high EPS B HE)]. exact HC.
    - change (iterate a b x (S m)) with (C (2 * S m + 1)). pose proof (same_side (S m)) as SS. replace (2 * S m + 3)%nat with (2 * S (S m) + 1)%nat in SS by lia. replace (2 * S m + 2)%nat with (2 * S (S m))%nat in SS by lia. exact SS. }
  unfold close_enough in HC. rewrite I in *. rewrite (Rabs_pos_eq (C _)) in HC by lra.
  eapply Rle_trans; [apply err_step|]. apply Rmult_le_compat_l; [pose proof slow_ge1; lra|]. lra.
Qed.
End Error.
