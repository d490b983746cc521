(** How far the binary64 quantiles are from the exact ones (C90). *)
From Coq Require Import ZArith List Bool Reals Lia Lra Psatz Permutation.
Import ListNotations.
From Flocq Require Import Core BinarySingleNaN.
From Verif Require Import F64 Base RSum FOrder BinModel SpecBin LinspaceProofs BrentFModel BrentFProofs Chi2FModel SpecChi2F Chi2FProofs QuantileFModel QuantileFProofs SpecQuant.
Open Scope R_scope.

(** ** the exact quantile *)
Lemma at_zero : forall x v, at_pos (x :: v) 0 = x.
Proof. intros x v. cbn [at_pos]. destruct v as [|y v]; [reflexivity|]. destruct (Rle_dec 0 1); [ring|exfalso; lra]. Qed.
Lemma at_nth : forall v j h, (S j < length v)%nat -> INR j <= h <= INR j + 1 -> at_pos v h = nth j v 0 + (h - INR j) * (nth (S j) v 0 - nth j v 0).
Proof.
  induction v as [|x v IH]; intros j h L H; cbn [length] in L; [lia|]. destruct v as [|y v]; [cbn [length] in L; lia|]. cbn [at_pos]. destruct j as [|j].
  - cbn [INR] in *. destruct (Rle_dec h 1) as [E|E]; [|exfalso; lra]. cbn [nth]. ring.
  - rewrite S_INR in *. destruct (Rle_dec h 1) as [E|E].
    + pose proof (pos_INR j). assert (INR j = 0) by lra. assert (J : j = 0%nat) by (apply INR_eq; exact H1). subst j. cbn [nth INR]. cbn [INR] in H. replace h with 1 by lra. ring.
    + change (at_pos (y :: v) (h - 1) = nth (S j) (x :: y :: v) 0 + (h - (INR j + 1)) * (nth (S (S j)) (x :: y :: v) 0 - nth (S j) (x :: y :: v) 0)). rewrite (IH j (h - 1) ltac:(cbn [length] in *; lia) ltac:(lra)). change (nth (S j) (x :: y :: v) 0) with (nth j (y :: v) 0). change (nth (S (S j)) (x :: y :: v) 0) with (nth (S j) (y :: v) 0). ring.
Qed.
Lemma at_last : forall v, v <> [] -> at_pos v (INR (length v - 1)) = nth (length v - 1) v 0.
Proof.
  induction v as [|x v IH]; intros H; [congruence|]. destruct v as [|y v]; [reflexivity|]. 
  change (length (x :: y :: v) - 1)%nat with (S (length v)). rewrite (at_nth (x :: y :: v) (length v)); [|cbn [length]; lia|rewrite S_INR; lra]. rewrite S_INR. ring.
Qed.
(** moving the position by [d] moves the value by at most [d] times the range *)
Lemma at_lip : forall v h h', (forall i j, (i <= j < length v)%nat -> nth i v 0 <= nth j v 0) -> 0 <= h <= h' ->
  0 <= at_pos v h' - at_pos v h <= (h' - h) * (nth (length v - 1) v 0 - nth 0 v 0).
Proof.
  induction v as [|x v IH]; intros h h' S H; [cbn [at_pos length nth Nat.sub]; lra|]. destruct v as [|y v]; [cbn [at_pos length nth Nat.sub]; lra|].
  assert (SV : forall i j, (i <= j < length (y :: v))%nat -> nth i (y :: v) 0 <= nth j (y :: v) 0) by (intros i j Hij; apply (S (Datatypes.S i) (Datatypes.S j)); cbn [length] in *; lia).
  assert (XY : x <= y) by (apply (S 0%nat 1%nat); cbn [length]; lia).
  assert (YL : y <= nth (length (y :: v) - 1) (y :: v) 0) by (apply (SV 0%nat); cbn [length]; lia).
  replace (nth (length (x :: y :: v) - 1) (x :: y :: v) 0) with (nth (length (y :: v) - 1) (y :: v) 0) by (change (length (x :: y :: v) - 1)%nat with (Datatypes.S (length v)); replace (length (y :: v) - 1)%nat with (length v) by (cbn [length]; lia); reflexivity).
  set (z := nth (length (y :: v) - 1) (y :: v) 0) in *. change (nth 0 (x :: y :: v) 0) with x.
  change (at_pos (x :: y :: v) h') with (if Rle_dec h' 1 then x + h' * (y - x) else at_pos (y :: v) (h' - 1)). change (at_pos (x :: y :: v) h) with (if Rle_dec h 1 then x + h * (y - x) else at_pos (y :: v) (h - 1)).
  destruct (Rle_dec h' 1) as [E'|E']; destruct (Rle_dec h 1) as [E|E].
  - assert (0 <= (h' - h) * (y - x)) by (apply Rmult_le_pos; lra). assert (0 <= (h' - h) * (z - y)) by (apply Rmult_le_pos; lra). lra.
  - exfalso; lra.
  - destruct (IH 0 (h' - 1) SV ltac:(lra)) as [A B]. rewrite at_zero in A, B. fold z in B. change (nth 0 (y :: v) 0) with y in B. assert (0 <= (1 - h) * (y - x)) by (apply Rmult_le_pos; lra). assert (0 <= (1 - h) * (z - y)) by (apply Rmult_le_pos; lra). assert (0 <= (h' - 1) * (y - x)) by (apply Rmult_le_pos; lra). lra.
  - destruct (IH (h - 1) (h' - 1) SV ltac:(lra)) as [A B]. fold z in B. change (nth 0 (y :: v) 0) with y in B. assert (0 <= (h' - h) * (y - x)) by (apply Rmult_le_pos; lra). lra.
Qed.
Lemma at_lip_abs : forall v h h', (forall i j, (i <= j < length v)%nat -> nth i v 0 <= nth j v 0) -> 0 <= h -> 0 <= h' ->
  Rabs (at_pos v h' - at_pos v h) <= Rabs (h' - h) * (nth (length v - 1) v 0 - nth 0 v 0).
Proof.
  intros v h h' S H H'. destruct (Rle_lt_dec h h') as [L|L].
  - destruct (at_lip v h h' S (conj H L)). rewrite !Rabs_pos_eq by lra. assumption.
  - destruct (at_lip v h' h S ltac:(lra)). rewrite (Rabs_minus_sym (at_pos v h')), (Rabs_minus_sym h'). rewrite !Rabs_pos_eq by lra. assumption.
Qed.
(** the sorted form is unique *)
Lemma sorted_unique : forall s s' : list R, Permutation s s' -> (forall i j, (i <= j < length s)%nat -> nth i s 0 <= nth j s 0) -> (forall i j, (i <= j < length s')%nat -> nth i s' 0 <= nth j s' 0) -> s = s'.
Proof.
  induction s as [|x s IH]; intros s' P S S'; [apply Permutation_nil in P; symmetry; exact P|]. destruct s' as [|y s']; [apply Permutation_sym, Permutation_nil in P; discriminate|].
  assert (MIN : forall x s, (forall i j, (i <= j < length (x :: s))%nat -> nth i (x :: s) 0 <= nth j (x :: s) 0) -> forall z, In z (x :: s) -> x <= z).
  { clear. intros x s S z Hz. destruct (In_nth _ _ 0 Hz) as (k & Hk & <-). apply (S 0%nat k). lia. }
  assert (E : x = y). { apply Rle_antisym; [apply (MIN x s S); apply (Permutation_in _ (Permutation_sym P)); left; reflexivity|apply (MIN y s' S'); apply (Permutation_in _ P); left; reflexivity]. }
  subst y. f_equal. apply IH; [apply Permutation_cons_inv with x; exact P| |].
  - intros i j H. apply (S (Datatypes.S i) (Datatypes.S j)). cbn [length]. lia.
  - intros i j H. apply (S' (Datatypes.S i) (Datatypes.S j)). cbn [length]. lia.
Qed.

(** ** the rounding of one interpolation *)
Lemma lerp_err : forall a b t, fmt a -> fmt b -> fmt t -> a <= b -> 0 <= t <= 1 -> Rabs (lerpR a b t - (a + t * (b - a))) <= 6 * u53 * (b - a) + u53 * (Rabs a + Rabs b) + 3 * eta0.
Proof.
  intros a b t Fa Fb Ft AB HT. unfold lerpR. pose proof (rnd_minus_err b a Fb Fa) as ED. rewrite (Rabs_pos_eq (b - a)) in ED by lra. set (d := rnd (b - a)) in *. cbv zeta.
  assert (U : 0 < u53 <= / 1024) by (unfold u53; lra). assert (ET : 0 < eta0) by (unfold eta0; apply bpow_gt_0). set (w := b - a) in *. assert (W : 0 <= w) by (unfold w; lra).
  apply Rabs_le_inv in ED. assert (UW : 0 <= u53 * w) by (apply Rmult_le_pos; lra). assert (UW2 : u53 * w <= w / 1024) by (unfold u53 in *; lra).
  (* a product with a factor near c in [0,1] *)
  assert (PR : forall c c', 0 <= c <= 1 -> 0 <= c' <= 1 -> Rabs (c' - c) <= u53 -> Rabs (rnd (d * c') - w * c) <= 4 * u53 * w + eta0).
  { intros c c' C C' CC. pose proof (rnd_err (d * c')) as E. assert (D0 : 0 <= d) by lra. assert (DC : 0 <= d * c' <= d) by (split; [apply Rmult_le_pos; lra|apply Rle_trans with (d * 1); [apply Rmult_le_compat_l; lra|lra]]).
    rewrite (Rabs_pos_eq (d * c')) in E by lra. assert (U1 : u53 * (d * c') <= u53 * (w * (1 + / 1024))) by (apply Rmult_le_compat_l; lra).
    assert (E2 : Rabs (d * c' - w * c) <= u53 * w + u53 * w). { replace (d * c' - w * c) with ((d - w) * c' + w * (c' - c)) by ring. eapply Rle_trans; [apply Rabs_triang|]. rewrite !Rabs_mult, (Rabs_pos_eq c') by lra. rewrite (Rabs_pos_eq w) by lra.
      apply Rplus_le_compat; [apply Rle_trans with (Rabs (d - w) * 1); [apply Rmult_le_compat_l; [apply Rabs_pos|lra]|rewrite Rmult_1_r; apply Rabs_le; lra]|rewrite (Rmult_comm u53); apply Rmult_le_compat_l; lra]. }
    replace (rnd (d * c') - w * c) with ((rnd (d * c') - d * c') + (d * c' - w * c)) by ring. eapply Rle_trans; [apply Rabs_triang|]. assert (u53 * (w * (1 + / 1024)) <= 2 * (u53 * w)) by lra. lra. }
  assert (AV : forall c, 0 <= c <= 1 -> Rabs (a + c * w) <= Rabs a + Rabs b).
  { intros c C. pose proof (Rle_abs a). pose proof (Rle_abs b). pose proof (Rle_abs (- a)). pose proof (Rle_abs (- b)). rewrite Rabs_Ropp in *. pose proof (Rabs_pos a). pose proof (Rabs_pos b).
    assert (0 <= c * w <= w) by (split; [apply Rmult_le_pos; lra|apply Rle_trans with (1 * w); [apply Rmult_le_compat_r; lra|lra]]). apply Rabs_le. unfold w in *. lra. }
  (* the final sum *)
  assert (FI : forall x y y0, fmt x -> fmt y -> Rabs (y - y0) <= 4 * u53 * w + eta0 -> Rabs (x + y0) <= Rabs a + Rabs b -> Rabs (rnd (x + y) - (x + y0)) <= 6 * u53 * w + u53 * (Rabs a + Rabs b) + 3 * eta0).
  { intros x y y0 FX FY E1 E2. pose proof (rnd_plus_err x y FX FY) as E. assert (A1 : Rabs (x + y) <= Rabs a + Rabs b + (4 * u53 * w + eta0)). { replace (x + y) with ((x + y0) + (y - y0)) by ring. eapply Rle_trans; [apply Rabs_triang|]. lra. }
    assert (A2 : u53 * Rabs (x + y) <= u53 * (Rabs a + Rabs b) + u53 * (4 * u53 * w + eta0)) by (rewrite <- Rmult_plus_distr_l; apply Rmult_le_compat_l; lra).
    assert (A3 : u53 * (4 * u53 * w + eta0) <= / 1024 * (4 * u53 * w + eta0)) by (apply Rmult_le_compat_r; lra).
    replace (rnd (x + y) - (x + y0)) with ((rnd (x + y) - (x + y)) + (y - y0)) by ring. eapply Rle_trans; [apply Rabs_triang|]. lra. }
  destruct (Rle_dec (1 / 2) t) as [T|T].
  - assert (F1 : fmt 1) by (apply (fmt_IZR 1); lia). pose proof (rnd_minus_err 1 t F1 Ft) as E1. rewrite (Rabs_pos_eq (1 - t)) in E1 by lra.
    assert (E2 : u53 * (1 - t) <= u53 * 1) by (apply Rmult_le_compat_l; lra).
    pose proof (comp_range t ltac:(lra)) as CR. specialize (PR (1 - t) (rnd (1 - t)) ltac:(lra) ltac:(lra) ltac:(lra)).
    replace (a + t * w) with (b + - (w * (1 - t))) by (unfold w; ring). apply (FI b (- rnd (d * rnd (1 - t))) (- (w * (1 - t)))); [exact Fb|apply fmt_opp, fmt_rnd| |].
    + replace (- rnd (d * rnd (1 - t)) - - (w * (1 - t))) with (- (rnd (d * rnd (1 - t)) - w * (1 - t))) by ring. rewrite Rabs_Ropp. exact PR.
    + replace (b + - (w * (1 - t))) with (a + t * w) by (unfold w; ring). apply AV. exact HT.
  - rewrite (Rmult_comm t w). apply (FI a (rnd (d * t)) (w * t)); [exact Fa|apply fmt_rnd| |rewrite Rmult_comm; apply AV; exact HT]. apply PR; [exact HT|exact HT|]. rewrite Rminus_eq_0, Rabs_R0. lra.
Qed.

(** ** the interpolation of numpy 1.18 and 1.19 *)
Lemma old_err : forall x y w M, fmt w -> 0 <= w <= 1 -> Rabs x <= M -> Rabs y <= M ->
  Rabs (rnd (rnd (x * rnd (1 - w)) + rnd (y * w)) - (x + w * (y - x))) <= 7 * u53 * M + 5 * eta0.
Proof.
  intros x y w M Fw HW HX HY. assert (M0 : 0 <= M) by (pose proof (Rabs_pos x); lra). assert (U : 0 < u53 <= / 1024) by (unfold u53; lra). assert (ET : 0 < eta0) by (unfold eta0; apply bpow_gt_0). assert (UM : 0 <= u53 * M <= / 1024 * M) by (split; [apply Rmult_le_pos; lra|apply Rmult_le_compat_r; lra]).
  pose proof (rnd_minus_err 1 w (fmt_IZR 1 ltac:(lia)) Fw) as G. rewrite (Rabs_pos_eq (1 - w)) in G by lra. assert (G1 : 0 <= rnd (1 - w) <= 1) by (split; [apply rnd_lb; [apply (fmt_IZR 0); lia|lra]|apply rnd_ub; [apply (fmt_IZR 1); lia|lra]]). set (g := rnd (1 - w)) in *.
  assert (GE : Rabs (g - (1 - w)) <= u53) by (apply Rle_trans with (1 := G); apply Rle_trans with (u53 * 1); [apply Rmult_le_compat_l; lra|lra]).
  assert (PB : forall a b, Rabs a <= M -> 0 <= b <= 1 -> Rabs (a * b) <= M) by (intros a b Ha Hb; rewrite Rabs_mult, (Rabs_pos_eq b) by lra; apply Rle_trans with (M * 1); [apply Rmult_le_compat; [apply Rabs_pos|lra|exact Ha|lra]|lra]).
  assert (PE : forall a, Rabs a <= M -> Rabs (rnd a - a) <= u53 * M + eta0) by (intros a Ha; apply Rle_trans with (1 := rnd_err a); apply Rplus_le_compat_r, Rmult_le_compat_l; lra).
  pose proof (PE _ (PB x g HX G1)) as E1. pose proof (PE _ (PB y w HY HW)) as E2. pose proof (PB x g HX G1) as B1. pose proof (PB y w HY HW) as B2.
  assert (E3 : Rabs (x * g - x * (1 - w)) <= u53 * M) by (rewrite <- Rmult_minus_distr_l, Rabs_mult, Rmult_comm; apply Rmult_le_compat; [apply Rabs_pos|apply Rabs_pos|exact GE|exact HX]).
  set (s := rnd (x * g) + rnd (y * w)) in *. pose proof (rnd_plus_err (rnd (x * g)) (rnd (y * w)) (fmt_rnd _) (fmt_rnd _)) as E4. fold s in E4.
  apply Rabs_le_inv in E1. apply Rabs_le_inv in E2. apply Rabs_le_inv in E3. apply Rabs_le_inv in B1. apply Rabs_le_inv in B2.
  assert (SB : Rabs s <= 2 * M + / 256 * M + 2 * eta0) by (apply Rabs_le; unfold s; lra).
  assert (E5 : u53 * Rabs s <= u53 * (2 * M + / 256 * M + 2 * eta0)) by (apply Rmult_le_compat_l; lra).
  assert (E6 : u53 * eta0 <= / 1024 * eta0) by (apply Rmult_le_compat_r; lra).
  assert (E7 : u53 * (2 * M + / 256 * M + 2 * eta0) = 2 * (u53 * M) + / 256 * (u53 * M) + 2 * (u53 * eta0)) by ring.
  apply Rabs_le_inv in E4. replace (x + w * (y - x)) with (x * (1 - w) + y * w) by ring. apply Rabs_le. unfold s in *. lra.
Qed.
