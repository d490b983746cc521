(** Order facts about binary64 comparisons, including infinities. *)
From Coq Require Import ZArith Bool Reals Lra Lia.
From Flocq Require Import Core BinarySingleNaN.
From Verif Require Import F64.
Open Scope Z_scope.

Definition rk (x : f64) : Z :=
  match x with B754_infinity true => -1 | B754_infinity false => 1 | _ => 0 end.

Lemma fcmp_ext : forall a b : f64, is_nan a = false -> is_nan b = false ->
  Bcompare a b = Some (match Z.compare (rk a) (rk b) with Eq => Rcompare (f2R a) (f2R b) | c => c end).
Proof.
  intros a b Ha Hb.
  destruct a as [sa|[|]| |sa ma ea Hea]; try discriminate; destruct b as [sb|[|]| |sb mb eb Heb]; try discriminate;
    try reflexivity; try (destruct sa; reflexivity); try (destruct sb; reflexivity);
    try (rewrite Bcompare_correct by reflexivity; reflexivity);
    unfold f2R; cbn [B2R rk Z.compare]; rewrite Rcompare_Eq; reflexivity.
Qed.

Lemma fle_ext : forall a b : f64, is_nan a = false -> is_nan b = false ->
  (fle a b = true <-> rk a < rk b \/ rk a = rk b /\ (f2R a <= f2R b)%R).
Proof.
  intros a b Ha Hb. unfold fle, Bleb, SpecFloat.SFleb. fold (Bcompare a b). rewrite fcmp_ext by assumption.
  destruct (Z.compare_spec (rk a) (rk b)) as [E|E|E].
  - destruct (Rcompare_spec (f2R a) (f2R b)) as [L|L|L]; split; intros H; try reflexivity; try discriminate; try (right; split; [exact E|lra]); exfalso; destruct H as [H|[_ H]]; try lia; lra.
  - split; auto.
  - split; [discriminate|]. intros [H|[H _]]; lia.
Qed.

Lemma flt_ext : forall a b : f64, is_nan a = false -> is_nan b = false ->
  (flt a b = true <-> rk a < rk b \/ rk a = rk b /\ (f2R a < f2R b)%R).
Proof.
  intros a b Ha Hb. unfold flt, Bltb, SpecFloat.SFltb. fold (Bcompare a b). rewrite fcmp_ext by assumption.
  destruct (Z.compare_spec (rk a) (rk b)) as [E|E|E].
  - destruct (Rcompare_spec (f2R a) (f2R b)) as [L|L|L]; split; intros H; try reflexivity; try discriminate; try (right; split; [exact E|lra]); exfalso; destruct H as [H|[_ H]]; try lia; lra.
  - split; auto.
  - split; [discriminate|]. intros [H|[H _]]; lia.
Qed.

Lemma fle_nan : forall a b : f64, fle a b = true -> is_nan a = false /\ is_nan b = false.
Proof. intros [sa|[|]| |sa ma ea Hea] [sb|[|]| |sb mb eb Heb] H; try discriminate; auto; destruct sa; discriminate. Qed.

Lemma flt_nan : forall a b : f64, flt a b = true -> is_nan a = false /\ is_nan b = false.
Proof. intros [sa|[|]| |sa ma ea Hea] [sb|[|]| |sb mb eb Heb] H; try discriminate; auto; destruct sa; discriminate. Qed.

Lemma flt_negb_fle : forall a b : f64, is_nan a = false -> is_nan b = false -> flt a b = negb (fle b a).
Proof.
  intros a b Ha Hb. destruct (flt a b) eqn:E1, (fle b a) eqn:E2; try reflexivity.
  - apply flt_ext in E1; [|assumption|assumption]. apply fle_ext in E2; [|assumption|assumption].
    exfalso. destruct E1 as [?|[? ?]], E2 as [?|[? ?]]; try lia; lra.
  - exfalso. assert (~ (flt a b = true)) as N1 by congruence. assert (~ (fle b a = true)) as N2 by congruence.
    rewrite flt_ext in N1 by assumption. rewrite fle_ext in N2 by assumption.
    destruct (Z.lt_trichotomy (rk a) (rk b)) as [?|[?|?]]; [tauto| |apply N2; left; lia].
    destruct (Rlt_le_dec (f2R a) (f2R b)); [tauto|]. apply N2. right. split; [lia|lra].
Qed.

Lemma fle_trans : forall a b c : f64, fle a b = true -> fle b c = true -> fle a c = true.
Proof.
  intros a b c H1 H2. destruct (fle_nan _ _ H1), (fle_nan _ _ H2).
  apply fle_ext in H1, H2; try assumption. apply fle_ext; try assumption.
  destruct H1 as [?|[? ?]], H2 as [?|[? ?]]; try (left; lia). right. split; [lia|lra].
Qed.

Lemma fle_lt_trans : forall a b c : f64, fle a b = true -> flt b c = true -> flt a c = true.
Proof.
  intros a b c H1 H2. destruct (fle_nan _ _ H1), (flt_nan _ _ H2).
  apply fle_ext in H1; try assumption. apply flt_ext in H2; try assumption. apply flt_ext; try assumption.
  destruct H1 as [?|[? ?]], H2 as [?|[? ?]]; try (left; lia). right. split; [lia|lra].
Qed.

Lemma flt_le_trans : forall a b c : f64, flt a b = true -> fle b c = true -> flt a c = true.
Proof.
  intros a b c H1 H2. destruct (flt_nan _ _ H1), (fle_nan _ _ H2).
  apply flt_ext in H1; try assumption. apply fle_ext in H2; try assumption. apply flt_ext; try assumption.
  destruct H1 as [?|[? ?]], H2 as [?|[? ?]]; try (left; lia). right. split; [lia|lra].
Qed.

Lemma fle_refl : forall a : f64, is_nan a = false -> fle a a = true.
Proof. intros a H. apply fle_ext; auto. right. split; [reflexivity|lra]. Qed.

Lemma flt_le : forall a b : f64, flt a b = true -> fle a b = true.
Proof.
  intros a b H. destruct (flt_nan _ _ H). apply flt_ext in H; auto. apply fle_ext; auto.
  destruct H as [?|[? ?]]; [left; auto|right; split; [auto|lra]].
Qed.
