(** C03 and C05: spacing of the automatic edges; binning with quantile edges in binary64.  C39: exact warnings. *)
From Coq Require Import String ZArith List Bool Reals Lia Lra.
Import ListNotations.
From Flocq Require Import Core BinarySingleNaN.
From Verif Require Import F64 Base Cells FOrder BinModel SpecBin BinProofs LinspaceProofs PropsBin HistModel.
Open Scope R_scope.

(** C03: the n+1 edges are equally spaced between (min - 1e-14) and max; binary64 rounding moves an edge by at most 2^-50 of the scale *)
Theorem C03_equal_width : forall npq arr n lo hi e,
  data_range arr lo hi -> (1 <= n <= 2 ^ 50)%Z -> bin_edges npq arr n false = Ok e ->
  let a := rnd (f2R lo - f2R tiny) in
  forall k, (k <= Z.to_nat n)%nat ->
    Rabs (f2R (nth k e fnan) - (a + INR k * ((f2R hi - a) / IZR n))) <= bpow radix2 (-50) * (Rabs a + Rabs (f2R hi)).
Proof. exact bin_edges_near. Qed.
Print Assumptions C03_equal_width.

(** what np.quantile(vals, linspace(0, 1, n+1)) returns: n+1 finite ascending numbers from the smallest to the largest value *)
Definition quantiles_ok (q : list f64) (n : Z) (lo hi : f64) : Prop :=
  length q = (Z.to_nat n + 1)%nat /\ ascending q /\ (forall x, In x q -> ffin x = true) /\
  f2R (nth 0 q fnan) = f2R lo /\ f2R (nth (Z.to_nat n) q fnan) = f2R hi.

Lemma lo_bound : forall arr lo hi, data_range arr lo hi -> Rabs (f2R lo) <= b2 1022.
Proof. intros arr lo hi (Hf & Hlo & _ & Flo & _). apply (Hf lo Hlo). apply fin_not_nan. exact Flo. Qed.

(** C05: the quantile edges are the quantiles, the first lowered by 1e-14 *)
Theorem C05_bin_edges_quantile : forall npq arr n lo hi,
  data_range arr lo hi -> (1 <= n)%Z ->
  let q := npq (filter (fun v => negb (fisnan v)) arr) n in
  quantiles_ok q n lo hi ->
  exists e, bin_edges npq arr n true = Ok e /\ length e = (Z.to_nat n + 1)%nat /\ ascending e /\ (forall x, In x e -> ffin x = true) /\
    f2R (nth 0 e fnan) = rnd (f2R lo - f2R tiny) /\ f2R (nth (Z.to_nat n) e fnan) = f2R hi /\
    (forall k, (1 <= k <= Z.to_nat n)%nat -> nth k e fnan = nth k q fnan).
Proof.
  intros npq arr n lo hi Hd Hn q (L & A & F & Q0 & QN). unfold bin_edges. fold q.
  destruct q as [|x0 xs]; [cbn in L; lia|]. cbn [length] in L. cbn [nth] in Q0.
  assert (F0 : ffin x0 = true) by (apply F; left; reflexivity).
  assert (B := lo_bound _ _ _ Hd). rewrite <- Q0 in B. assert (Hdl := dl_val).
  assert (Bd : Rabs (f2R x0 - dl) <= b2 1023).
  { apply Rabs_le_inv in B. apply Rabs_le. change 1023%Z with (1022 + 1)%Z. rewrite bpow_plus. change (b2 1) with 2.
    assert (1 <= b2 1022) by (change 1 with (b2 0); apply b2_mono; lia). lra. }
  destruct (fminus_spec x0 tiny 1023 F0 tiny_fin ltac:(lia) Bd) as [ES FS]. fold dl in ES.
  assert (LE : f2R (fminus x0 tiny) <= f2R x0).
  { rewrite ES. rewrite <- (rnd_id (f2R x0)) at 2 by apply fmt_B2R. apply rnd_le. lra. }
  assert (FN : forall i, (i <= Z.to_nat n)%nat -> ffin (nth i (x0 :: xs) fnan) = true) by (intros i Hi; apply F, nth_In; cbn [length]; lia).
  exists (fminus x0 tiny :: xs). split; [reflexivity|]. split; [cbn [length]; lia|]. split; [|split; [|split; [|split]]].
  - intros i j Hij. cbn [length] in Hij.
    destruct i as [|i]; destruct j as [|j]; cbn [nth].
    + apply fle_spec; [exact FS|exact FS|lra].
    + assert (H := A 0%nat (S j) ltac:(cbn [length]; lia)). cbn [nth] in H. assert (Fj := FN (S j) ltac:(lia)). cbn [nth] in Fj.
      apply fle_spec in H; [|exact F0|exact Fj]. apply fle_spec; [exact FS|exact Fj|lra].
    + lia.
    + exact (A (S i) (S j) ltac:(cbn [length]; lia)).
  - intros x [<-|Hx]; [exact FS|]. apply F. right. exact Hx.
  - cbn [nth]. rewrite ES, Q0. reflexivity.
  - destruct (Z.to_nat n) as [|m] eqn:En; [lia|]. exact QN.
  - intros k Hk. destruct k as [|k]; [lia|]. reflexivity.
Qed.
Print Assumptions C05_bin_edges_quantile.

(** C05: every value lands in one of the n bins, except the smallest when 1e-14 is absorbed *)
Theorem C05_quantile_binning : forall npq arr n lo hi,
  data_range arr lo hi -> (1 <= n)%Z -> quantiles_ok (npq (filter (fun v => negb (fisnan v)) arr) n) n lo hi ->
  exists e, bin_edges npq arr n true = Ok e /\ Forall2 (fun v c =>
      (fisnan v = true -> c = CNaN) /\
      (fisnan v = false -> f2R lo < f2R v \/ -128 < f2R lo <= 128 -> exists i, (1 <= i <= n)%Z /\ c = CInt i) /\
      (fisnan v = false -> f2R v = f2R lo -> ~ (-128 < f2R lo <= 128) -> c = CStr "UF"))
    arr (fst (bin_array arr e)).
Proof.
  intros npq arr n lo hi Hd Hn HQ. destruct (C05_bin_edges_quantile npq arr n lo hi Hd Hn HQ) as (e & E1 & E2 & E3 & E4 & E5 & E6 & _).
  exists e. split; [exact E1|].
  destruct Hd as (Hfin & Hlo & Hhi & Flo & Fhi & Hr). apply edges_binning with hi; try assumption.
  intros v H1 H2. destruct (Hfin v H1 H2). split; auto.
Qed.
Print Assumptions C05_quantile_binning.

Example C05_binning_hypotheses : data_range ex_arr (ofZ 200) (ofZ 300) /\
  quantiles_ok ((fun (_ : list f64) (_ : Z) => [ofZ 200; ofZ 250; ofZ 300]) (filter (fun v => negb (fisnan v)) ex_arr) 2%Z) 2 (ofZ 200) (ofZ 300).
Proof.
  split; [exact C04_hypotheses_met|]. split; [reflexivity|]. split; [|split; [|split; reflexivity]].
  - intros i j H. cbn in H. destruct i as [|[|[|i]]]; destruct j as [|[|[|j]]]; try lia; vm_compute; reflexivity.
  - intros x [<-|[<-|[<-|[]]]]; apply (ofZ_spec _); lia.
Qed.
(** quantile edges do not repair C04: the smallest record is lost here too *)
Theorem C05_quantile_bins_cover_the_data_refuted :
  match bin_edges (fun _ _ => [ofZ 200; ofZ 250; ofZ 300]) ex_arr 2 true with Ok e => fst (bin_array ex_arr e) | _ => [] end = [CStr "UF"; CNaN; CInt 2].
Proof. vm_compute. reflexivity. Qed.
Print Assumptions C05_quantile_bins_cover_the_data_refuted.

(** C39: the other two warnings *)
Theorem C39_x_warning : forall nr nc n, In (WLargeX n) (snd (dq_check_hist2d nr nc)) <-> (2 <= nc)%nat /\ (1000 < nr)%nat /\ n = nr.
Proof.
  intros nr nc n. unfold dq_check_hist2d. destruct nr as [|[|nr]]; destruct nc as [|[|nc]]; cbn [Nat.eqb orb];
    try (solve [cbn; intuition (try discriminate; try congruence; try lia)]).
  destruct (Nat.ltb_spec 1000 (S (S nr))); destruct (Nat.ltb_spec 1000 (S (S nc))); cbn [snd app In];
    intuition (try discriminate; try congruence; try lia).
Qed.
Print Assumptions C39_x_warning.
Theorem C39_too_few : forall nr nc x y, In (WTooFew x y) (snd (dq_check_hist2d nr nc)) <-> ((nr < 2)%nat \/ (nc < 2)%nat) /\ x = nr /\ y = nc.
Proof.
  intros nr nc x y. unfold dq_check_hist2d. destruct nr as [|[|nr]]; destruct nc as [|[|nc]]; cbn [Nat.eqb orb];
    try (solve [cbn; intuition (try discriminate; try congruence; try lia)]).
  destruct (Nat.ltb_spec 1000 (S (S nr))); destruct (Nat.ltb_spec 1000 (S (S nc))); cbn [snd app In];
    intuition (try discriminate; try congruence; try lia).
Qed.
Print Assumptions C39_too_few.
