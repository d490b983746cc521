(** 3.14159265358979323 < PI < 3.14159265358979324, from the standard library's series for arctan(1/3) and arctan(1/7). *)
From Coq Require Import ZArith QArith Qreals Reals Lia Lra Machin Ratan AltSeries.
Open Scope R_scope.

Fixpoint qpow (q : Q) (n : nat) : Q := match n with O => 1%Q | S n => Qred (q * qpow q n) end.
Definition qterm (n : nat) : Q := ((2 * qpow (1 # 3) (2 * n + 1) + qpow (1 # 7) (2 * n + 1)) / inject_Z (Z.of_nat (2 * n + 1)))%Q.
Fixpoint qsum (n : nat) : Q := match n with O => qterm 0 | S k => Qred (qsum k + (if Nat.even n then qterm n else - qterm n))%Q end.

Lemma qpow_R : forall q n, Q2R (qpow q n) = Q2R q ^ n.
Proof.
  intros q n. induction n as [|n IH]; [cbn; unfold Q2R; cbn; lra|]. cbn [qpow]. rewrite (Qeq_eqR _ _ (Qred_correct _)), Q2R_mult, IH. reflexivity.
Qed.
Lemma qterm_R : forall n, Q2R (qterm n) = PI_2_3_7_tg n.
Proof.
  intros n. unfold qterm, PI_2_3_7_tg, Ratan_seq. assert (N : inject_Z (Z.of_nat (2 * n + 1)) == 0 -> False) by (unfold Qeq; cbn [Qnum Qden inject_Z]; lia).
  rewrite Q2R_div by exact N. rewrite Q2R_plus, Q2R_mult, !qpow_R.
  replace (Q2R (inject_Z (Z.of_nat (2 * n + 1)))) with (INR (2 * n + 1)) by (unfold Q2R, inject_Z; cbn [Qnum Qden]; rewrite INR_IZR_INZ; field).
  replace (Q2R (1 # 3)) with (/ 3) by (unfold Q2R; cbn; lra). replace (Q2R (1 # 7)) with (/ 7) by (unfold Q2R; cbn; lra). replace (Q2R 2) with 2 by (unfold Q2R; cbn; lra).
  assert (INR (2 * n + 1) <> 0) by (apply not_0_INR; lia). field. assumption.
Qed.
Lemma qsum_R : forall n, Q2R (qsum n) = sum_f_R0 (tg_alt PI_2_3_7_tg) n.
Proof.
  induction n as [|n IH]; [cbn [qsum sum_f_R0]; rewrite qterm_R; unfold tg_alt; cbn [pow]; ring|].
  cbn [sum_f_R0]. rewrite <- IH. unfold qsum; fold qsum. rewrite (Qeq_eqR _ _ (Qred_correct _)), Q2R_plus. f_equal. unfold tg_alt. destruct (Nat.even (S n)) eqn:E.
  - apply Nat.even_spec in E. destruct E as (m & ->). rewrite qterm_R, pow_1_even. ring.
  - assert (O : Nat.odd (S n) = true) by (unfold Nat.odd; rewrite E; reflexivity). apply Nat.odd_spec in O. destruct O as (m & ->). rewrite Q2R_opp, qterm_R.
    replace (2 * m + 1)%nat with (S (2 * m)) by lia. rewrite pow_1_odd. ring.
Qed.
Lemma pi_bound : 314159265358979323 / 100000000000000000 < PI < 314159265358979324 / 100000000000000000.
Proof.
  pose proof (PI_2_3_7_ineq 9) as [A B]. rewrite <- qsum_R in A, B.
  assert (LO : Qlt (314159265358979323 # 400000000000000000) (qsum (S (2 * 9)))) by (vm_compute; reflexivity).
  assert (HI : Qlt (qsum (2 * 9)) (314159265358979324 # 400000000000000000)) by (vm_compute; reflexivity).
  apply Qlt_Rlt in LO, HI. unfold Q2R at 1 in LO. unfold Q2R at 2 in HI. cbn [Qnum Qden] in LO, HI. lra.
Qed.
