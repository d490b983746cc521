(** Properties C01-C07: binning. *)
From Coq Require Import String ZArith List Bool Reals Lia Lra Sorting.Sorted.
Import ListNotations.
From Flocq Require Import Core BinarySingleNaN.
From Verif Require Import F64 Base Cells FOrder BinModel SpecBin BinProofs LinspaceProofs BinDataProofs.
From Verif Require Import SpecQuantile QuantileModel QuantileProofs.
Open Scope Z_scope.

(** C01: every value gets a right bin, and there is only one right bin. *)
Theorem C01_bin_array : forall arr e, (1 <= length e)%nat -> ascending e ->
  Forall2 (bin_of e) arr (fst (bin_array arr e)).
Proof. exact bin_array_spec. Qed.
Print Assumptions C01_bin_array.

Theorem C01_bin_unique : forall e v c d, ascending e -> bin_of e v c -> bin_of e v d -> c = d.
Proof. exact bin_of_unique. Qed.
Print Assumptions C01_bin_unique.

Definition ex_edges := [ofZ 0; ofZ 1; ofZ 1; ofZ 4].
Example C01_hypotheses_met : ascending ex_edges.
Proof.
  intros i j H. unfold ex_edges in *. simpl in H.
  destruct i as [|[|[|[|i]]]]; destruct j as [|[|[|[|j]]]]; try lia; vm_compute; reflexivity.
Qed.
Example C01_run : fst (bin_array [ofZ 0; ofZ 1; fnan; ofZ 3; ofZ 5; ofZ (-2)] ex_edges) =
  [CStr "UF"; CInt 1; CNaN; CInt 3; CStr "OF"; CStr "UF"].
Proof. vm_compute. reflexivity. Qed.

(** C02 *)
Theorem C02_labels : forall arr e, (1 <= length e)%nat -> ascending e ->
  exists is, snd (bin_array arr e) = map (fun i => (nth (i - 1) e fnan, nth i e fnan)) is /\
    StronglySorted lt is /\
    forall i, In i is <-> (1 <= i < length e)%nat /\ In (CInt (Z.of_nat i)) (fst (bin_array arr e)).
Proof. exact bin_array_labels. Qed.
Print Assumptions C02_labels.

Example C02_run : length (snd (bin_array [ofZ 0; ofZ 1; fnan; ofZ 3] ex_edges)) = 2%nat.
Proof. vm_compute. reflexivity. Qed.

(** C03 *)
Theorem C03_uniform_edges : forall npq arr n lo hi,
  data_range arr lo hi -> 1 <= n <= 2 ^ 50 ->
  exists e, bin_edges npq arr n false = Ok e /\ length e = (Z.to_nat n + 1)%nat /\ ascending e /\
    (forall x, In x e -> ffin x = true) /\
    f2R (nth 0 e fnan) = rnd (f2R lo - f2R tiny) /\ f2R (nth (Z.to_nat n) e fnan) = f2R hi.
Proof. exact bin_edges_uniform. Qed.
Print Assumptions C03_uniform_edges.

(** the offset is the binary64 number next to 1e-14 *)
Theorem C03_offset : ffin tiny = true /\ (Rabs (f2R tiny - / 100000000000000) <= bpow radix2 (-100))%R.
Proof.
  split; [exact tiny_fin|]. fold dl. rewrite dl_val.
  change (bpow radix2 (-100)) with (/ 1267650600228229401496703205376)%R. apply Rabs_le. split; lra.
Qed.
Print Assumptions C03_offset.

(** C03 (no overflow, only the smallest value can underflow) and C04 (it does iff not -128 < min <= 128) *)
Theorem C04_uniform_binning : forall npq arr n lo hi, data_range arr lo hi -> 1 <= n <= 2 ^ 50 ->
  exists e, bin_edges npq arr n false = Ok e /\ Forall2 (fun v c =>
      (fisnan v = true -> c = CNaN) /\
      (fisnan v = false -> (f2R lo < f2R v \/ -128 < f2R lo <= 128)%R -> exists i, 1 <= i <= n /\ c = CInt i) /\
      (fisnan v = false -> f2R v = f2R lo -> ~ (-128 < f2R lo <= 128)%R -> c = CStr "UF"))
    arr (fst (bin_array arr e)).
Proof. exact uniform_binning. Qed.
Print Assumptions C04_uniform_binning.

Definition ex_arr := [ofZ 200; fnan; ofZ 300].
Example C04_hypotheses_met : data_range ex_arr (ofZ 200) (ofZ 300).
Proof.
  destruct (ofZ_spec 200) as [E1 F1]; [lia|]. destruct (ofZ_spec 300) as [E2 F2]; [lia|].
  assert (B : (300 <= bpow radix2 1022)%R).
  { apply Rle_trans with (bpow radix2 9); [change (bpow radix2 9) with 512%R; lra|apply bpow_le; lia]. }
  unfold ex_arr. repeat split; try assumption; try (simpl; tauto).
  - destruct H as [<-|[<-|[<-|[]]]]; [exact F1|discriminate|exact F2].
  - destruct H as [<-|[<-|[<-|[]]]]; [rewrite E1|discriminate|rewrite E2]; rewrite Rabs_pos_eq; lra.
  - destruct H as [<-|[<-|[<-|[]]]]; [rewrite E1|discriminate|rewrite E1, E2]; lra.
  - destruct H as [<-|[<-|[<-|[]]]]; [rewrite E1, E2|discriminate|rewrite E2]; lra.
Qed.

(** refutation: two bins for [200, nan, 300] lose the first record *)
Theorem C04_automatic_bins_cover_the_data_refuted : forall npq,
  match bin_edges npq ex_arr 2 false with Ok e => fst (bin_array ex_arr e) | _ => [] end = [CStr "UF"; CNaN; CInt 2].
Proof. intros npq. vm_compute. reflexivity. Qed.
Print Assumptions C04_automatic_bins_cover_the_data_refuted.

(** C05: exact arithmetic *)
Theorem C05_quantile_edges : forall vals nb off, vals <> [] -> (1 <= nb)%nat -> (0 < off)%R ->
  let e := quantile_edges off vals nb in
  length e = (nb + 1)%nat /\
  (forall i j, (i <= j <= nb)%nat -> (nth i e 0 <= nth j e 0)%R) /\
  (exists mn mx, is_min vals mn /\ is_max vals mx /\ nth 0 e 0%R = (mn - off)%R /\ nth nb e 0%R = mx) /\
  (forall v, In v vals -> exists i, (1 <= i <= nb)%nat /\ (nth (i - 1) e 0 < v <= nth i e 0)%R) /\
  (forall k, (1 <= k <= nb)%nat ->
     (k * (length vals - 1) / nb + 1 <= count_le vals (nth k e 0%R))%nat /\
     (count_lt vals (nth k e 0%R) <= k * (length vals - 1) / nb + 1)%nat).
Proof. intros. apply quantile_edges_spec; assumption. Qed.
Print Assumptions C05_quantile_edges.

Example C05_hypotheses_met : [3; 1; 2]%R <> [] /\ (1 <= 2)%nat /\ (0 < / 100000000000000)%R.
Proof. repeat split; [discriminate|lia|lra]. Qed.

(** C06 *)
Theorem C06_bin_data : forall npq data cols bins q out dict,
  bin_data npq data cols bins q = Ok (out, dict) ->
  keys out = keys data /\ (forall c, ~ In c cols -> assoc c out = assoc c data) /\
  (forall c, In c cols -> supported (spec_of bins c) ->
   exists column arr edges, assoc c data = Some column /\ mapM to_float (c_cells column) = Ok arr /\
    asks_for npq bins q c arr edges /\
    assoc c out = Some (mkCol false (fst (bin_array arr edges))) /\ assoc c dict = Some (snd (bin_array arr edges))).
Proof. exact bin_data_spec. Qed.
Print Assumptions C06_bin_data.

(** and it does not fail when every requested column exists, is numeric and has usable edges *)
Theorem C06_bin_data_succeeds : forall npq data cols bins q,
  (forall c, In c cols -> exists column arr edges, assoc c data = Some column /\ mapM to_float (c_cells column) = Ok arr /\
     asks_for npq bins q c arr edges) ->
  exists out dict, bin_data npq data cols bins q = Ok (out, dict).
Proof. exact bin_data_total. Qed.
Print Assumptions C06_bin_data_succeeds.

(** record by record: lengths agree *)
Theorem C06_same_records : forall arr e, length (fst (bin_array arr e)) = length arr.
Proof. intros. rewrite bin_array_fst. apply map_length. Qed.
Print Assumptions C06_same_records.

Definition ex_frame : frame := [("a", mkCol true [CInt 1; CInt 5]); ("b", mkCol true [CInt 7; CNaN]); ("c", mkCol false [CStr "x"; CStr "y"])]%string.
Definition ex_bins := BDict [("a", BEdges [ofZ 0; ofZ 2; ofZ 9]); ("b", BOther)]%string.
Example C06_run : forall npq, match bin_data npq ex_frame ["a"%string] ex_bins false with Ok (out, _) => out | _ => [] end =
  [("a", mkCol false [CInt 1; CInt 2]); ("b", mkCol true [CInt 7; CNaN]); ("c", mkCol false [CStr "x"; CStr "y"])]%string.
Proof. intros npq. vm_compute. reflexivity. Qed.

(** C07 *)
Theorem C07_missing_key : forall npq data cols d q c, In c cols -> assoc c d = None ->
  bin_data npq data cols (BDict d) q = Raise ValueError.
Proof. exact bin_data_missing_key. Qed.
Print Assumptions C07_missing_key.

Theorem C07_unsupported_first : forall npq data cols bins q c column arr,
  assoc c data = Some column -> mapM to_float (c_cells column) = Ok arr -> spec_of bins c = Some BOther ->
  (forall d, bins = BDict d -> forall c', In c' (c :: cols) -> assoc c' d <> None) ->
  bin_data npq data (c :: cols) bins q = Raise UnboundLocalError.
Proof. exact bin_data_unsupported_first. Qed.
Print Assumptions C07_unsupported_first.

Theorem C07_unsupported_reuses_previous_edges : forall npq data l p c r d q out dict pcol parr pedges,
  bin_data npq data (l ++ p :: c :: r) (BDict d) q = Ok (out, dict) ->
  ~ In c r -> In c (keys data) -> assoc c d = Some BOther ->
  assoc p data = Some pcol -> mapM to_float (c_cells pcol) = Ok parr -> asks_for npq (BDict d) q p parr pedges ->
  exists column arr, assoc c data = Some column /\ mapM to_float (c_cells column) = Ok arr /\
    assoc c out = Some (mkCol false (fst (bin_array arr pedges))).
Proof. exact bin_data_unsupported_later. Qed.
Print Assumptions C07_unsupported_reuses_previous_edges.

(** 'own specification or failure' is refuted *)
Theorem C07_own_spec_or_fail_refuted : forall npq,
  match bin_data npq ex_frame ["a"; "b"]%string ex_bins false with Ok (out, _) => assoc "b"%string out | _ => None end =
  Some (mkCol false [CInt 2; CNaN]).
Proof. intros npq. vm_compute. reflexivity. Qed.
Print Assumptions C07_own_spec_or_fail_refuted.
