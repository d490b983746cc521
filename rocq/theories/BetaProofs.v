(** The continued fraction: its tails are positive, its convergents are the loop's values. *)
From Coq Require Import ZArith List Bool Reals Lra Lia Psatz Arith.
From Verif Require Import Base StatsModel StatsProofs Num BetaModel SpecBeta.
Import ListNotations.
Open Scope R_scope.

Lemma coeff_even : forall a b x m, coeff a b x (2 * m) = d_even a b x (INR m).
Proof.
  intros. unfold coeff. replace (Nat.even (2 * m)) with true.
  - replace (Nat.div2 (2 * m)) with m; [reflexivity|]. symmetry. apply Nat.div2_double.
  - symmetry. rewrite Nat.even_spec. exists m. reflexivity.
Qed.
Lemma coeff_odd : forall a b x m, coeff a b x (S (2 * m)) = d_odd a b x (INR m).
Proof.
  intros. unfold coeff. replace (Nat.even (S (2 * m))) with false.
  - rewrite Nat.div2_succ_double. reflexivity.
  - symmetry. rewrite Nat.even_succ. rewrite <- Nat.negb_even. replace (Nat.even (2 * m)) with true; [reflexivity|].
    symmetry. rewrite Nat.even_spec. exists m. reflexivity.
Qed.

Lemma domain_x1 : forall a b x, cf_domain a b x -> x < 1 /\ x * (a + b + 2) <= a + 1.
Proof.
  intros a b x (Ha & Hb & Hx & Hx2).
  assert (E : x * (a + b + 2) <= a + 1).
  { apply Rmult_le_reg_r with (/ (a + b + 2)); [apply Rinv_0_lt_compat; lra|].
    rewrite Rmult_assoc, Rinv_r by lra. lra. }
  split; [nra|exact E].
Qed.

Section Pos.
Variables a b x : R.

Lemma low_odd : forall M T, 0 < a -> 0 < x < 1 -> 0 <= M -> b <= M + 1 -> 0 < b -> 0 < T -> (M + 1) / (a + 2 * (M + 1)) <= T ->
  (a + b + M) / (a + 2 * M + 1) <= 1 + d_even a b x (M + 1) / T.
Proof.
  intros M T Ha Hx HM Hb Hb0 HT Hl.
  assert (E : (M + 1) / ((a + 2 * (M + 1)) * T) <= 1).
  { apply Rmult_le_reg_r with ((a + 2 * (M + 1)) * T); [nra|].
    unfold Rdiv. rewrite Rmult_assoc, Rinv_l by (apply Rgt_not_eq; nra).
    apply Rmult_le_compat_l with (r := a + 2 * (M + 1)) in Hl; [|lra].
    replace ((a + 2 * (M + 1)) * ((M + 1) / (a + 2 * (M + 1)))) with (M + 1) in Hl by (field; lra). lra. }
  replace (1 + d_even a b x (M + 1) / T) with (1 - (M + 1 - b) * x / (a + 2 * M + 1) * ((M + 1) / ((a + 2 * (M + 1)) * T))).
  2:{ unfold d_even. field. repeat split; nra. }
  set (u := (M + 1) / ((a + 2 * (M + 1)) * T)) in *.
  assert (U0 : 0 <= u) by (unfold u; apply Rlt_le, Rdiv_lt_0_compat; nra).
  assert (P : (M + 1 - b) * x / (a + 2 * M + 1) * u <= (M + 1 - b) / (a + 2 * M + 1)).
  { unfold Rdiv. replace ((M + 1 - b) * x * / (a + 2 * M + 1) * u) with ((M + 1 - b) * / (a + 2 * M + 1) * (x * u)) by ring.
    rewrite <- (Rmult_1_r ((M + 1 - b) * / (a + 2 * M + 1))) at 2.
    apply Rmult_le_compat_l; [apply Rmult_le_pos; [lra|apply Rlt_le, Rinv_0_lt_compat; lra]|nra]. }
  replace ((a + b + M) / (a + 2 * M + 1)) with (1 - (M + 1 - b) / (a + 2 * M + 1)) by (field; lra). lra.
Qed.

Lemma low_even : forall M T, 0 < a -> 0 < b -> 0 < x < 1 -> 0 <= M -> 0 < T -> (a + b + M) / (a + 2 * M + 1) <= T ->
  M / (a + 2 * M) <= 1 + d_odd a b x M / T /\ 0 < 1 + d_odd a b x M / T.
Proof.
  intros M T Ha Hb Hx HM HT Hl.
  assert (E : (a + b + M) / ((a + 2 * M + 1) * T) <= 1).
  { apply Rmult_le_reg_r with ((a + 2 * M + 1) * T); [nra|].
    unfold Rdiv. rewrite Rmult_assoc, Rinv_l by (apply Rgt_not_eq; nra).
    apply Rmult_le_compat_l with (r := a + 2 * M + 1) in Hl; [|lra].
    replace ((a + 2 * M + 1) * ((a + b + M) / (a + 2 * M + 1))) with (a + b + M) in Hl by (field; lra). lra. }
  replace (1 + d_odd a b x M / T) with (1 - (a + M) * x / (a + 2 * M) * ((a + b + M) / ((a + 2 * M + 1) * T))).
  2:{ unfold d_odd. field. repeat split; nra. }
  set (u := (a + b + M) / ((a + 2 * M + 1) * T)) in *.
  assert (U0 : 0 <= u) by (unfold u; apply Rlt_le, Rdiv_lt_0_compat; nra).
  assert (I : 0 < / (a + 2 * M)) by (apply Rinv_0_lt_compat; lra).
  assert (P : (a + M) * x / (a + 2 * M) * u <= (a + M) / (a + 2 * M) * x).
  { unfold Rdiv. replace ((a + M) * x * / (a + 2 * M) * u) with ((a + M) * / (a + 2 * M) * x * u) by ring.
    rewrite <- (Rmult_1_r ((a + M) * / (a + 2 * M) * x)) at 2.
    apply Rmult_le_compat_l; [|exact E]. apply Rmult_le_pos; [apply Rmult_le_pos; lra|lra]. }
  assert (Q : 0 < (a + M) / (a + 2 * M) <= 1).
  { split; [apply Rdiv_lt_0_compat; lra|]. apply Rmult_le_reg_r with (a + 2 * M); [lra|].
    unfold Rdiv. rewrite Rmult_assoc, Rinv_l by lra. lra. }
  replace (M / (a + 2 * M)) with (1 - (a + M) / (a + 2 * M)) by (field; lra). split; nra.
Qed.

Lemma d_odd_neg : forall M, 0 < a -> 0 < b -> 0 < x -> 0 <= M -> d_odd a b x M < 0.
Proof.
  intros. unfold d_odd, Rdiv. rewrite Ropp_mult_distr_l_reverse. apply Ropp_lt_gt_0_contravar.
  apply Rmult_lt_0_compat; [|apply Rinv_0_lt_compat; apply Rmult_lt_0_compat; lra]. apply Rmult_lt_0_compat; [apply Rmult_lt_0_compat; lra|lra].
Qed.

Lemma cut_odd : forall M, 0 < a -> 0 < b -> 0 < x -> x * (a + b + 2) <= a + 1 -> 0 <= M -> 0 < 1 + d_odd a b x M.
Proof.
  intros M Ha Hb Hx Hs HM. unfold d_odd.
  assert (P : x * ((a + M) * (a + b + M)) < (a + 2 * M) * (a + 2 * M + 1)).
  { apply Rle_lt_trans with ((a + 2 * M) * (x * (a + b + M))).
    { replace (x * ((a + M) * (a + b + M))) with ((a + M) * (x * (a + b + M))) by ring. apply Rmult_le_compat_r; [apply Rmult_le_pos; lra|lra]. }
    apply Rmult_lt_compat_l; [lra|].
    apply Rmult_lt_reg_r with (a + b + 2); [lra|].
    apply Rle_lt_trans with ((a + 1) * (a + b + M)); [nra|]. nra. }
  replace (1 + - ((a + M) * (a + b + M) * x) / ((a + 2 * M) * (a + 2 * M + 1)))
    with (((a + 2 * M) * (a + 2 * M + 1) - x * ((a + M) * (a + b + M))) / ((a + 2 * M) * (a + 2 * M + 1))) by (field; split; lra).
  apply Rdiv_lt_0_compat; nra.
Qed.

(** the polynomial inequality behind the even tails *)
Lemma poly : forall M, 0 < a -> 0 < b -> 0 < x -> x * (a + b + 2) <= a + 1 -> 0 <= M ->
  x * ((a + M) * (a + b + M) * (a + 2 * M + 2) - (M + 1) * (b - (M + 1)) * (a + 2 * M)) < (a + 2 * M) * (a + 2 * M + 1) * (a + 2 * M + 2).
Proof.
  intros M Ha Hb Hx Hs HM.
  set (E := (a + M) * (a + b + M) * (a + 2 * M + 2) - (M + 1) * (b - (M + 1)) * (a + 2 * M)).
  set (F := (a + 2 * M) * (a + 2 * M + 1) * (a + 2 * M + 2)).
  assert (HF : 0 < F) by (unfold F; repeat apply Rmult_lt_0_compat; lra).
  assert (HE : E = a * b * (a + 2 * M + 1) + (a + M) * (a + M) * (a + 2 * M + 2) + (M + 1) * (M + 1) * (a + 2 * M)) by (unfold E; ring).
  assert (HE0 : 0 < E).
  { rewrite HE. assert (0 < a * b) by nra. assert (0 < (a + M) * (a + M)) by nra. assert (0 < (M + 1) * (M + 1)) by nra.
    assert (0 < a * b * (a + 2 * M + 1)) by (apply Rmult_lt_0_compat; lra).
    assert (0 < (a + M) * (a + M) * (a + 2 * M + 2)) by (apply Rmult_lt_0_compat; lra).
    assert (0 < (M + 1) * (M + 1) * (a + 2 * M)) by (apply Rmult_lt_0_compat; lra). lra. }
  apply Rmult_lt_reg_r with (a + b + 2); [lra|].
  apply Rle_lt_trans with ((a + 1) * E).
  { replace (x * E * (a + b + 2)) with (x * (a + b + 2) * E) by ring. apply Rmult_le_compat_r; lra. }
  match goal with |- ?l < ?r => assert (0 <= r - l - 3 * a); [|lra] end. rewrite HE. unfold F. ring_simplify.
  repeat (apply Rplus_le_le_0_compat);
  repeat match goal with
  | |- 0 <= _ * _ => apply Rmult_le_pos
  | |- 0 <= _ ^ _ => apply pow_le
  end; lra.
Qed.

Hypothesis Dom : cf_domain a b x.

Notation tail := (cf_tail a b x).

Lemma tail_S : forall k l, tail k (S l) = 1 + coeff a b x (S k) / tail (S k) l. Proof. reflexivity. Qed.

Lemma neg_div : forall d T, d < 0 -> 0 < T -> d / T < 0.
Proof. intros. unfold Rdiv. assert (0 < / T) by (apply Rinv_0_lt_compat; lra). nra. Qed.

(** one step down from T at an odd position *)
Lemma odd_step : forall m T, 0 < T <= 1 -> (b <= INR (S m) + 1 -> INR (S m) / (a + 2 * INR (S m)) <= T) ->
  0 < 1 + d_even a b x (INR (S m)) / T /\ (b <= INR m + 1 -> (a + b + INR m) / (a + 2 * INR m + 1) <= 1 + d_even a b x (INR (S m)) / T).
Proof.
  intros m T HT Hl. destruct Dom as (Ha & Hb & Hx & _). destruct (domain_x1 _ _ _ Dom) as [Hx1 _].
  pose proof (pos_INR m) as HM. rewrite S_INR in *.
  destruct (Rle_or_lt b (INR m + 1)) as [Hle|Hgt].
  - assert (L : (a + b + INR m) / (a + 2 * INR m + 1) <= 1 + d_even a b x (INR m + 1) / T).
    { apply low_odd; try lra; apply Hl; lra. }
    split; [|intros _; exact L]. apply Rlt_le_trans with (2 := L). apply Rdiv_lt_0_compat; lra.
  - split; [|intros; lra]. assert (0 <= d_even a b x (INR m + 1) / T); [|lra].
    unfold Rdiv. apply Rmult_le_pos; [|apply Rlt_le, Rinv_0_lt_compat; lra]. unfold d_even, Rdiv.
    apply Rmult_le_pos; [|apply Rlt_le, Rinv_0_lt_compat; apply Rmult_lt_0_compat; lra].
    apply Rmult_le_pos; [|lra]. apply Rmult_le_pos; lra.
Qed.

Definition even_ok (m l : nat) : Prop := 0 < tail (2 * m) l <= 1 /\ (b <= INR m + 1 -> INR m / (a + 2 * INR m) <= tail (2 * m) l).
Definition odd_ok (m l : nat) : Prop :=
  0 < tail (S (2 * m)) l /\ (b <= INR m + 1 -> (a + b + INR m) / (a + 2 * INR m + 1) <= tail (S (2 * m)) l).

Lemma tail_odd_step : forall m l, even_ok (S m) l -> odd_ok m (S l).
Proof.
  intros m l H. unfold odd_ok. rewrite tail_S. replace (S (S (2 * m))) with (2 * S m)%nat by lia. rewrite coeff_even.
  destruct H as [H1 H2]. apply odd_step; assumption.
Qed.

Lemma tails_ok : forall l m, even_ok m l /\ odd_ok m l.
Proof.
  destruct Dom as (Ha & Hb & Hx & _). destruct (domain_x1 _ _ _ Dom) as [Hx1 Hs].
  induction l as [l IH] using (well_founded_induction lt_wf). intros m. pose proof (pos_INR m) as HM.
  destruct l as [|l].
  - split; (split; [simpl; lra|intros Hlow; simpl]).
    + apply Rmult_le_reg_r with (a + 2 * INR m); [lra|]. unfold Rdiv. rewrite Rmult_assoc, Rinv_l by lra. lra.
    + apply Rmult_le_reg_r with (a + 2 * INR m + 1); [lra|]. unfold Rdiv. rewrite Rmult_assoc, Rinv_l by lra. lra.
  - split; [|apply tail_odd_step; apply IH; lia].
    unfold even_ok. rewrite tail_S, coeff_odd.
    destruct (IH l ltac:(lia) m) as [_ [O1 O2]].
    assert (N : d_odd a b x (INR m) < 0) by (apply d_odd_neg; lra).
    assert (U : 1 + d_odd a b x (INR m) / tail (S (2 * m)) l <= 1) by (pose proof (neg_div _ _ N O1); lra).
    destruct (Rle_or_lt b (INR m + 1)) as [Hle|Hgt].
    + assert (E : INR m / (a + 2 * INR m) <= 1 + d_odd a b x (INR m) / tail (S (2 * m)) l /\ 0 < 1 + d_odd a b x (INR m) / tail (S (2 * m)) l).
      { apply low_even; [lra|lra|lra|lra|exact O1|apply O2; exact Hle]. }
      destruct E as [E1 E2].
      split; [split; assumption|intros _; exact E1].
    + split; [|intros; lra]. split; [|exact U]. destruct l as [|l].
      * simpl. replace (d_odd a b x (INR m) / 1) with (d_odd a b x (INR m)) by field. apply cut_odd; lra.
      * rewrite tail_S. replace (S (S (2 * m))) with (2 * S m)%nat by lia. rewrite coeff_even.
        destruct (IH l ltac:(lia) (S m)) as [[[T1 T2] _] _].
        set (T := tail (2 * S m) l) in *. rewrite S_INR.
        assert (DE : 0 <= d_even a b x (INR m + 1)).
        { unfold d_even, Rdiv. apply Rmult_le_pos; [|apply Rlt_le, Rinv_0_lt_compat; apply Rmult_lt_0_compat; lra].
          apply Rmult_le_pos; [|lra]. apply Rmult_le_pos; lra. }
        assert (G : 1 + d_even a b x (INR m + 1) <= 1 + d_even a b x (INR m + 1) / T).
        { assert (1 <= / T) by (rewrite <- Rinv_1; apply Rinv_le_contravar; lra). unfold Rdiv. nra. }
        set (y := 1 + d_even a b x (INR m + 1) / T) in *.
        assert (K : - d_odd a b x (INR m) < 1 + d_even a b x (INR m + 1)).
        { pose proof (poly (INR m) Ha Hb Hx Hs HM) as P. unfold d_odd, d_even.
          match goal with |- ?l < ?r => assert (0 < r - l); [|lra] end.
          match goal with |- 0 < ?e => replace e with
            (((a + 2 * INR m) * (a + 2 * INR m + 1) * (a + 2 * INR m + 2) - x * ((a + INR m) * (a + b + INR m) * (a + 2 * INR m + 2) - (INR m + 1) * (b - (INR m + 1)) * (a + 2 * INR m)))
             / ((a + 2 * INR m) * (a + 2 * INR m + 1) * (a + 2 * INR m + 2))) by (field; repeat split; lra) end.
          apply Rdiv_lt_0_compat; [lra|]. repeat apply Rmult_lt_0_compat; lra. }
        assert (Y : 0 < y) by lra.
        replace (1 + d_odd a b x (INR m) / y) with ((y + d_odd a b x (INR m)) / y) by (field; lra).
        apply Rdiv_lt_0_compat; lra.
Qed.

Lemma tail_pos : forall k l, 0 < tail k l.
Proof.
  intros k l. destruct (Nat.Even_or_Odd k) as [[m ->]|[m ->]].
  - apply (tails_ok l m).
  - replace (2 * m + 1)%nat with (S (2 * m)) by lia. apply (tails_ok l m).
Qed.
Lemma tail0_le1 : forall l, tail 0 l <= 1.
Proof. intros l. apply (tails_ok l 0). Qed.

(** three-term recurrence; index 0 is n = -1 *)
Definition recur (u : nat -> R) : Prop := forall n, u (S (S n)) = u (S n) + coeff a b x (S n) * u n.

Lemma recur_tail : forall l k, exists c, 0 < c /\ forall u, recur u -> u (S (k + l)) = c * (u (S k) + (tail k l - 1) * u k).
Proof.
  induction l as [|l IH]; intros k.
  - exists 1. split; [lra|]. intros u _. rewrite Nat.add_0_r. simpl. ring.
  - destruct (IH (S k)) as (c & Hc & E). pose proof (tail_pos (S k) l) as P.
    exists (c * tail (S k) l). split; [apply Rmult_lt_0_compat; assumption|].
    intros u Hu. replace (k + S l)%nat with (S k + l)%nat by lia. rewrite (E u Hu), (Hu k), tail_S.
    field. lra.
Qed.

(** numerators and denominators *)
Fixpoint seqs (p0 p1 : R) (n : nat) : R * R :=
  match n with O => (p0, p1) | S n' => let '(u, v) := seqs p0 p1 n' in (v, v + coeff a b x (S n') * u) end.
Definition Pn (n : nat) : R := fst (seqs 0 1 n).
Definition Qn (n : nat) : R := fst (seqs 1 1 n).
Lemma seqs_recur : forall p0 p1, recur (fun n => fst (seqs p0 p1 n)).
Proof. intros p0 p1 n. cbn [seqs]. destruct (seqs p0 p1 n) as [u v]. cbn. reflexivity. Qed.

Lemma Pn_rec : forall n, Pn (S (S n)) = Pn (S n) + coeff a b x (S n) * Pn n.
Proof. exact (seqs_recur 0 1). Qed.
Lemma Qn_rec : forall n, Qn (S (S n)) = Qn (S n) + coeff a b x (S n) * Qn n.
Proof. exact (seqs_recur 1 1). Qed.

Lemma PQ : forall n, 0 < Pn (S n) /\ 0 < Qn (S n) /\ Pn (S n) / Qn (S n) = convergent a b x n.
Proof.
  intros n. destruct (recur_tail n 0) as (c & Hc & E). simpl plus in E.
  pose proof (E _ (seqs_recur 0 1)) as E1. pose proof (E _ (seqs_recur 1 1)) as E2. cbn in E1, E2.
  pose proof (tail_pos 0 n) as T.
  assert (e1 : Pn (S n) = c) by (unfold Pn; cbn; lra).
  assert (e2 : Qn (S n) = c * tail 0 n) by (unfold Qn; cbn; lra).
  rewrite e1, e2. split; [lra|]. split; [apply Rmult_lt_0_compat; assumption|]. unfold convergent. field. lra.
Qed.
Lemma convergent_ge1 : forall n, 1 <= convergent a b x n.
Proof.
  intros n. unfold convergent. rewrite <- Rinv_1 at 1. unfold Rdiv. rewrite Rmult_1_l.
  apply Rinv_le_contravar; [apply tail_pos|apply tail0_le1].
Qed.

(** the loop state after m iterations, up to a common factor *)
Definition cf_inv (m : nat) (s : cfstate) : Prop :=
  exists c, 0 < c /\ am s = c * Pn (2 * m + 1) /\ bm s = c * Qn (2 * m + 1) /\ az s = c * Pn (2 * m + 2) /\ bz s = c * Qn (2 * m + 2).

Lemma rdiv_ok : forall u v, v <> 0 -> rdiv u v = Ok (u / v).
Proof. intros u v H. unfold rdiv. rewrite (proj2 (reqb_false _ _)) by exact H. reflexivity. Qed.

Lemma start_inv : exists s, cf_start a b x = Ok s /\ cf_inv 0 s /\ az s = 1.
Proof.
  destruct Dom as (Ha & Hb & _). unfold cf_start. rewrite rdiv_ok by lra. eexists. split; [reflexivity|]. cbn [az].
  split; [|reflexivity]. exists 1. split; [lra|]. cbn [am bm bz az]. unfold Pn, Qn. simpl Nat.mul. simpl Nat.add. cbn [seqs fst].
  rewrite (coeff_odd a b x 0 : coeff a b x 1 = _). unfold d_odd. simpl INR.
  split; [ring|]. split; [ring|]. split; [ring|]. field. split; lra.
Qed.

Lemma step_inv : forall m s, cf_inv m s -> exists s', cf_step a b x (INR m + 1) s = Ok s' /\ cf_inv (S m) s' /\ az s' = convergent a b x (2 * S m + 1).
Proof.
  intros m s (c & Hc & E1 & E2 & E3 & E4). destruct Dom as (Ha & Hb & _). pose proof (pos_INR m) as HM.
  unfold cf_step. cbv zeta. rewrite rdiv_ok by (apply Rmult_integral_contrapositive_currified; lra). cbn [rbind].
  rewrite rdiv_ok by (apply Rmult_integral_contrapositive_currified; lra). cbn [rbind].
  set (d := (INR m + 1) * (b - (INR m + 1)) * x / ((a - 1 + (INR m + 1 + (INR m + 1))) * (a + (INR m + 1 + (INR m + 1))))).
  set (d' := - (a + (INR m + 1)) * (a + b + (INR m + 1)) * x / ((a + 1 + (INR m + 1 + (INR m + 1))) * (a + (INR m + 1 + (INR m + 1))))).
  assert (D : d = coeff a b x (2 * S m)).
  { rewrite coeff_even. unfold d, d_even. rewrite S_INR. field. split; lra. }
  assert (D' : d' = coeff a b x (S (2 * S m))).
  { rewrite coeff_odd. unfold d', d_odd. rewrite S_INR. field. split; lra. }
  pose proof (Pn_rec (2 * m + 1)) as RP. pose proof (Qn_rec (2 * m + 1)) as RQ.
  pose proof (Pn_rec (2 * m + 2)) as RP'. pose proof (Qn_rec (2 * m + 2)) as RQ'.
  replace (S (2 * m + 1)) with (2 * m + 2)%nat in * by lia. replace (S (2 * m + 2)) with (2 * m + 3)%nat in * by lia.
  replace (S (2 * m + 3)) with (2 * m + 4)%nat in * by lia.
  replace (2 * S m)%nat with (2 * m + 2)%nat in * by lia.
  replace (S (2 * m + 2)) with (2 * m + 3)%nat in * by lia.
  assert (A3 : az s + d * am s = c * Pn (2 * m + 3)) by (rewrite E1, E3, D, RP; ring).
  assert (B3 : bz s + d * bm s = c * Qn (2 * m + 3)) by (rewrite E2, E4, D, RQ; ring).
  rewrite A3, B3.
  assert (A4 : c * Pn (2 * m + 3) + d' * az s = c * Pn (2 * m + 4)) by (rewrite E3, D', RP'; ring).
  assert (B4 : c * Qn (2 * m + 3) + d' * bz s = c * Qn (2 * m + 4)) by (rewrite E4, D', RQ'; ring).
  rewrite A4, B4.
  destruct (PQ (2 * m + 3)) as (P1 & P2 & P3). replace (S (2 * m + 3)) with (2 * m + 4)%nat in * by lia.
  assert (NZ : c * Qn (2 * m + 4) <> 0) by (apply Rgt_not_eq, Rmult_lt_0_compat; assumption).
  rewrite !rdiv_ok by exact NZ. cbn [rbind]. eexists. split; [reflexivity|]. cbn [az]. split.
  - exists (/ Qn (2 * m + 4)). split; [apply Rinv_0_lt_compat; exact P2|]. cbn [am bm az bz].
    replace (2 * m + 2 + 1)%nat with (2 * m + 3)%nat by lia. replace (2 * m + 2 + 2)%nat with (2 * m + 4)%nat by lia.
    replace (2 * S m + 1)%nat with (2 * m + 3)%nat by lia. replace (2 * S m + 2)%nat with (2 * m + 4)%nat by lia.
    split; [field; lra|]. split; [field; lra|]. split; [field; lra|]. field; lra.
  - replace (2 * m + 2 + 1)%nat with (2 * m + 3)%nat by lia. rewrite <- P3. field. lra.
Qed.

(** the loop finds the first iterate close enough to its predecessor *)
Lemma loop_spec : forall EPS n i s, cf_inv i s -> az s = iterate a b x i ->
  (exists m, (i < m <= i + n)%nat /\ close_enough EPS (iterate a b x (pred m)) (iterate a b x m) /\
     (forall m', (i < m' < m)%nat -> ~ close_enough EPS (iterate a b x (pred m')) (iterate a b x m')) /\ cf_loop a b x EPS n i s = Ok (iterate a b x m)) \/
  ((forall m, (i < m <= i + n)%nat -> ~ close_enough EPS (iterate a b x (pred m)) (iterate a b x m)) /\ cf_loop a b x EPS n i s = Raise ValueError).
Proof.
  intros EPS n. induction n as [|n IH]; intros i s Hi Hz.
  - right. split; [intros; lia|reflexivity].
  - cbn [cf_loop]. destruct (step_inv i s Hi) as (s' & -> & Hi' & Hz'). cbn [rbind].
    assert (Ez : az s' = iterate a b x (S i)) by exact Hz'. rewrite Ez, Hz.
    destruct (rltb (Rabs (iterate a b x (S i) - iterate a b x i)) (EPS * Rabs (iterate a b x (S i)))) eqn:C.
    + apply rltb_true in C. left. exists (S i). split; [lia|]. split; [exact C|]. split; [intros; lia|reflexivity].
    + apply rltb_false in C. assert (NC : ~ close_enough EPS (iterate a b x i) (iterate a b x (S i))) by (unfold close_enough; lra).
      destruct (IH (S i) s' Hi' Ez) as [(m & Hm & Cm & Lm & Em)|[Lm Em]].
      * left. exists m. split; [lia|]. split; [exact Cm|]. split; [|exact Em].
        intros m' Hm'. destruct (Nat.eq_dec m' (S i)) as [->|]; [exact NC|apply Lm; lia].
      * right. split; [|exact Em]. intros m Hm. destruct (Nat.eq_dec m (S i)) as [->|]; [exact NC|apply Lm; lia].
Qed.
End Pos.
