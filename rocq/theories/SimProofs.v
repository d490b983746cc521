(** Proofs about phik/simulation.py. *)
From Coq Require Import String ZArith List Bool Reals Lra Lia.
From Flocq Require Import Core.
Import ListNotations.
From Verif Require Import F64 Base RSum StatsModel SpecStats StatsProofs StatsProofs2 SpecRcont RcontModel RcontProofs2 PropsRcont SimModel SpecSim.
Open Scope list_scope.
Open Scope R_scope.

Lemma lsum_flat_map : forall A B (f : B -> R) (g : A -> list B) l, lsum f (flat_map g l) = lsum (fun a => lsum f (g a)) l.
Proof. intros. induction l as [|a l IH]; [reflexivity|]. cbn [flat_map]. rewrite lsum_app, IH. reflexivity. Qed.
Lemma row_length : forall m i, length (row m i) = nc m. Proof. intros. unfold row. rewrite map_length, seq_length. reflexivity. Qed.
Lemma lsum_row : forall m i, lsum (fun x => x) (row m i) = rowsum m i. Proof. intros. unfold row. rewrite lsum_map. reflexivity. Qed.
Lemma lsum_ravel : forall m, lsum (fun x => x) (ravel m) = matsum m.
Proof. intros. unfold ravel. rewrite lsum_flat_map. apply lsum_ext. intros. apply lsum_row. Qed.
Lemma length_flat_map_const : forall A B (g : A -> list B) c l, (forall a, length (g a) = c) -> length (flat_map g l) = (length l * c)%nat.
Proof. intros A B g c l H. induction l as [|a l IH]; [reflexivity|]. cbn [flat_map length Nat.mul]. rewrite app_length, H, IH. reflexivity. Qed.
Lemma ravel_length : forall m, length (ravel m) = (nr m * nc m)%nat.
Proof. intros. unfold ravel. rewrite (length_flat_map_const _ _ _ (nc m)) by (intros; apply row_length). rewrite seq_length. reflexivity. Qed.
Lemma in_row : forall m i x, In x (row m i) -> exists j, (j < nc m)%nat /\ x = el m i j.
Proof. intros m i x H. apply in_map_iff in H. destruct H as (j & <- & Hj). apply in_seq in Hj. exists j. split; [lia|reflexivity]. Qed.
Lemma in_ravel : forall m x, In x (ravel m) -> exists i j, (i < nr m)%nat /\ (j < nc m)%nat /\ x = el m i j.
Proof. intros m x H. apply in_flat_map in H. destruct H as (i & Hi & H). apply in_seq in Hi. apply in_row in H. destruct H as (j & Hj & ->). exists i, j. repeat split; [lia|exact Hj]. Qed.

Lemma IZR_zsum : forall l, IZR (zsum l) = lsum IZR l.
Proof. induction l as [|z l IH]; [reflexivity|]. cbn [zsum fold_right]. rewrite plus_IZR. fold (zsum l). rewrite IH. reflexivity. Qed.
Lemma zsum_map_IZR : forall (f : nat -> Z) l, IZR (zsum (map f l)) = lsum (fun i => IZR (f i)) l.
Proof. intros. rewrite IZR_zsum, lsum_map. reflexivity. Qed.
Lemma lsum_nth_seq : forall (l : list Z) c, (length l = c)%nat -> lsum (fun j => IZR (nth j l 0%Z)) (seq 0 c) = lsum IZR l.
Proof. intros l c <-. apply (lsum_nth Z IZR l 0%Z). Qed.
Lemma chunks : forall c r (l : list Z), length l = (r * c)%nat -> lsum (fun i => lsum (fun j => IZR (nth (i * c + j) l 0%Z)) (seq 0 c)) (seq 0 r) = lsum IZR l.
Proof.
  intros c. induction r as [|r IH]; intros l H; [destruct l; [reflexivity|discriminate]|].
  cbn [seq]. rewrite lsum_cons. transitivity (lsum IZR (firstn c l ++ skipn c l)); [|rewrite firstn_skipn; reflexivity]. rewrite lsum_app.
  assert (LF : length (firstn c l) = c) by (rewrite firstn_length; cbn [Nat.mul] in H; lia). assert (LS : length (skipn c l) = (r * c)%nat) by (rewrite skipn_length; cbn [Nat.mul] in H; lia).
  f_equal.
  - rewrite <- (lsum_nth_seq _ c LF). apply lsum_ext. intros j Hj. apply in_seq in Hj. cbn [Nat.mul Nat.add]. f_equal. transitivity (nth j (firstn c l ++ skipn c l) 0%Z); [rewrite firstn_skipn; reflexivity|]. apply app_nth1. lia.
  - rewrite <- (IH _ LS). rewrite <- seq_shift, lsum_map. apply lsum_ext. intros i Hi. apply lsum_ext. intros j Hj. apply in_seq in Hj. f_equal. transitivity (nth (Datatypes.S i * c + j) (firstn c l ++ skipn c l) 0%Z); [rewrite firstn_skipn; reflexivity|]. rewrite app_nth2 by (rewrite LF; cbn; lia). f_equal. rewrite LF. cbn [Nat.mul]. lia.
Qed.
Lemma reshape_matsum : forall r c l, length l = (r * c)%nat -> matsum (reshape r c l) = IZR (zsum l).
Proof. intros r c l H. rewrite IZR_zsum, <- (chunks c r l H). reflexivity. Qed.
Lemma whole_IZR : forall z, (0 <= z)%Z -> exists k : nat, IZR z = INR k.
Proof. intros z H. exists (Z.to_nat z). rewrite INR_IZR_INZ, Z2Nat.id by exact H. reflexivity. Qed.
Lemma nth_nonneg : forall (l : list Z) i, (forall z, In z l -> (0 <= z)%Z) -> (0 <= nth i l 0)%Z.
Proof. intros l i H. destruct (Nat.lt_ge_cases i (length l)) as [L|L]; [apply H, nth_In, L|rewrite nth_overflow by exact L; lia]. Qed.
Lemma reshape_counts : forall r c l, (forall z, In z l -> (0 <= z)%Z) -> count_table r c (reshape r c l).
Proof. intros r c l H. split; [reflexivity|]. split; [reflexivity|]. intros i j _ _. cbn [el reshape]. apply whole_IZR, nth_nonneg, H. Qed.
Lemma trunc_whole : forall x, whole x -> IZR (Ztrunc x) = x.
Proof. intros x (k & ->). rewrite INR_IZR_INZ, Ztrunc_IZR. reflexivity. Qed.
Lemma trunc_pos : forall x, 0 <= x -> (0 <= Ztrunc x)%Z.
Proof. intros x H. rewrite Ztrunc_floor by exact H. apply Zfloor_lub. exact H. Qed.
Lemma count_nonneg : forall r c t, count_table r c t -> nonneg_table t.
Proof. intros r c t (A & B & C) i j Hi Hj. destruct (C i j) as (k & ->); [lia|lia|apply pos_INR]. Qed.

Section SimP.
  Variable S : Type.
  Variable multinomial : Z -> list R -> S -> res (list Z) * S.
  Hypothesis MO : multinomial_ok multinomial.
  Notation sim_flat := (sim_flat S multinomial).

  Lemma sim_flat_ok : forall l nd s, (forall x, In x l -> 0 <= x) -> 0 < lsum (fun x => x) l ->
    exists out s', sim_flat l nd s = (Ok out, s') /\ length out = length l /\ (forall z, In z out -> (0 <= z)%Z) /\
      zsum out = if (nd <=? 0)%Z then Ztrunc (lsum (fun x => x) l) else nd.
  Proof.
    intros l nd s NN P. unfold SimModel.sim_flat. set (t := lsum (fun x => x) l) in *. set (n := if (nd <=? 0)%Z then t else IZR nd).
    assert (PN : 0 < n) by (unfold n; destruct (Z.leb_spec nd 0); [exact P|apply IZR_lt; lia]).
    rewrite (proj2 (rleb_false _ _)) by exact PN. rewrite (proj2 (reqb_false _ _)) by lra.
    destruct (MO (Ztrunc n) (map (fun x => x / t) l) s) as (out & s' & E & LE & NO & SO).
    - apply trunc_pos. lra.
    - intros x Hx. apply in_map_iff in Hx. destruct Hx as (y & <- & Hy). apply Rmult_le_pos; [apply NN, Hy|]. left. apply Rinv_0_lt_compat. exact P.
    - rewrite lsum_map. unfold Rdiv. rewrite lsum_scal_r. fold t. apply Rinv_r. lra.
    - exists out, s'. split; [exact E|]. rewrite map_length in LE. split; [exact LE|]. split; [exact NO|]. rewrite SO. unfold n. destruct (nd <=? 0)%Z; [reflexivity|apply Ztrunc_IZR].
  Qed.
  Lemma sim_flat_zero : forall l nd s, lsum (fun x => x) l = 0 -> sim_flat l nd s = (Raise ValueError, s).
  Proof. intros l nd s E. unfold SimModel.sim_flat. rewrite E. destruct (nd <=? 0)%Z; [rewrite (proj2 (rleb_true 0 0)) by lra; reflexivity|]. destruct (rleb (IZR nd) 0); [reflexivity|]. rewrite (proj2 (reqb_true 0 0) eq_refl). reflexivity. Qed.

  Lemma sim_2d_ok : forall m nd s, nonneg_table m -> has_records m ->
    exists t s', sim_2d_data S multinomial m nd s = (Ok t, s') /\ count_table (nr m) (nc m) t /\ matsum t = IZR (if (nd <=? 0)%Z then Ztrunc (matsum m) else nd).
  Proof.
    intros m nd s HN HR. destruct (sim_flat_ok (ravel m) nd s) as (out & s' & E & LE & NO & SO).
    - intros x Hx. apply in_ravel in Hx. destruct Hx as (i & j & Hi & Hj & ->). apply HN; assumption.
    - rewrite lsum_ravel. apply matsum_pos; assumption.
    - exists (reshape (nr m) (nc m) out), s'. unfold sim_2d_data, mbind. rewrite E. split; [reflexivity|]. split; [apply reshape_counts, NO|].
      rewrite reshape_matsum by (rewrite LE; apply ravel_length). rewrite SO, lsum_ravel. reflexivity.
  Qed.

  Lemma mmap_ok : forall A B (f : A -> M S B) (P : A -> B -> Prop) l, (forall a, In a l -> forall s, exists b s', f a s = (Ok b, s') /\ P a b) ->
    forall s, exists bs s', mmap S f l s = (Ok bs, s') /\ Forall2 P l bs.
  Proof.
    intros A B f P. induction l as [|a l IH]; intros H s; [exists [], s; split; [reflexivity|constructor]|].
    destruct (H a (or_introl eq_refl) s) as (b & s1 & E & Pb). destruct (IH (fun x Hx => H x (or_intror Hx)) s1) as (bs & s2 & E2 & F). exists (b :: bs), s2.
    cbn [mmap]. unfold mbind. rewrite E, E2. split; [reflexivity|constructor; assumption].
  Qed.
  Lemma mmap_raise : forall A B (f : A -> M S B) e l, (forall a, In a l -> forall s, (exists b s', f a s = (Ok b, s')) \/ (exists s', f a s = (Raise e, s'))) ->
    (exists a, In a l /\ forall s, exists s', f a s = (Raise e, s')) -> forall s, exists s', mmap S f l s = (Raise e, s').
  Proof.
    intros A B f e. induction l as [|a l IH]; intros H (x & Hx & R) s; [destruct Hx|]. cbn [mmap]. unfold mbind. destruct Hx as [->|Hx].
    - destruct (R s) as (s' & ->). exists s'. reflexivity.
    - destruct (H a (or_introl eq_refl) s) as [(b & s1 & ->)|(s1 & ->)]; [|exists s1; reflexivity]. destruct (IH (fun y Hy => H y (or_intror Hy)) (ex_intro _ x (conj Hx R)) s1) as (s2 & ->). exists s2. reflexivity.
  Qed.

  (** simulating every row with its own total *)
  Lemma rows_ok : forall m s, nonneg_table m -> positive_rowsums m ->
    exists rs s', mmap S (fun i => sim_flat (row m i) 0) (seq 0 (nr m)) s = (Ok rs, s') /\ length rs = nr m /\
      forall i, (i < nr m)%nat -> length (nth i rs []) = nc m /\ (forall z, In z (nth i rs []) -> (0 <= z)%Z) /\ zsum (nth i rs []) = Ztrunc (rowsum m i).
  Proof.
    intros m s HN HP. destruct (mmap_ok nat (list Z) (fun i => sim_flat (row m i) 0) (fun i o => length o = nc m /\ (forall z, In z o -> (0 <= z)%Z) /\ zsum o = Ztrunc (rowsum m i)) (seq 0 (nr m))) with (s := s) as (rs & s' & E & F).
    - intros i Hi s0. apply in_seq in Hi. destruct (sim_flat_ok (row m i) 0 s0) as (out & s1 & E & LE & NO & SO).
      + intros x Hx. apply in_row in Hx. destruct Hx as (j & Hj & ->). apply HN; [lia|exact Hj].
      + rewrite lsum_row. apply HP. lia.
      + exists out, s1. split; [exact E|]. rewrite row_length in LE. rewrite lsum_row in SO. auto.
    - exists rs, s'. split; [exact E|]. assert (LR : length rs = nr m) by (rewrite <- (seq_length (nr m) 0); clear - F; induction F; cbn; congruence). split; [exact LR|].
      intros i Hi. assert (G : forall k l r, Forall2 (fun i o => length o = nc m /\ (forall z, In z o -> (0 <= z)%Z) /\ zsum o = Ztrunc (rowsum m i)) l r -> (k < length l)%nat -> length (nth k r []) = nc m /\ (forall z, In z (nth k r []) -> (0 <= z)%Z) /\ zsum (nth k r []) = Ztrunc (rowsum m (nth k l 0%nat))).
      { clear. intros k l r F. revert k. induction F; intros k Hk; [cbn in Hk; lia|]. destruct k; [cbn [nth]; assumption|]. cbn [nth]. apply IHF. cbn in Hk. lia. }
      specialize (G i _ _ F). rewrite seq_length, seq_nth in G by exact Hi. apply G. exact Hi.
  Qed.
  Lemma of_rows_facts : forall m rs, length rs = nr m -> (forall i, (i < nr m)%nat -> length (nth i rs []) = nc m /\ (forall z, In z (nth i rs []) -> (0 <= z)%Z) /\ zsum (nth i rs []) = Ztrunc (rowsum m i)) ->
    count_table (nr m) (nc m) (of_rows (nc m) rs) /\ forall i, (i < nr m)%nat -> rowsum (of_rows (nc m) rs) i = IZR (Ztrunc (rowsum m i)).
  Proof.
    intros m rs L F. split.
    - split; [exact L|]. split; [reflexivity|]. intros i j Hi Hj. cbn [el of_rows]. apply whole_IZR, nth_nonneg. apply F. exact Hi.
    - intros i Hi. destruct (F i Hi) as (LE & _ & SO). unfold rowsum at 1. cbn [nc el of_rows]. rewrite (lsum_nth_seq (nth i rs []) (nc m) LE), <- IZR_zsum, SO. reflexivity.
  Qed.
  Lemma product_axis1 : forall m s, nonneg_table m -> positive_rowsums m ->
    exists t s', sim_2d_product_multinominal S multinomial m 1 s = (Ok t, s') /\ count_table (nr m) (nc m) t /\ forall i, (i < nr m)%nat -> rowsum t i = IZR (Ztrunc (rowsum m i)).
  Proof.
    intros m s HN HP. destruct (rows_ok m s HN HP) as (rs & s' & E & L & F). exists (of_rows (nc m) rs), s'. unfold sim_2d_product_multinominal. cbn [Z.eqb Pos.eqb]. unfold mbind. rewrite E. split; [reflexivity|]. apply of_rows_facts; assumption.
  Qed.
  Lemma product_axis0 : forall m s, nonneg_table m -> positive_colsums m ->
    exists t s', sim_2d_product_multinominal S multinomial m 0 s = (Ok t, s') /\ count_table (nr m) (nc m) t /\ forall j, (j < nc m)%nat -> colsum t j = IZR (Ztrunc (colsum m j)).
  Proof.
    intros m s HN HP. assert (HN' : nonneg_table (transp m)) by (intros i j Hi Hj; apply HN; assumption). assert (HP' : positive_rowsums (transp m)) by exact HP.
    destruct (rows_ok (transp m) s HN' HP') as (rs & s' & E & L & F). exists (transp (of_rows (nr m) rs)), s'. unfold sim_2d_product_multinominal. cbn [Z.eqb]. unfold mbind. cbn [nr transp] in E. rewrite E. split; [reflexivity|].
    destruct (of_rows_facts (transp m) rs L F) as [(A & B & C) D]. split; [|intros j Hj; exact (D j Hj)]. split; [exact B|]. split; [exact A|]. intros i j Hi Hj. cbn [el transp]. apply (C j i); assumption.
  Qed.
  Lemma product_raises : forall m s axis, (axis = 0 \/ axis = 1)%Z -> nonneg_table m -> (if (axis =? 1)%Z then exists i, (i < nr m)%nat /\ rowsum m i = 0 else exists j, (j < nc m)%nat /\ colsum m j = 0) ->
    exists s', sim_2d_product_multinominal S multinomial m axis s = (Raise ValueError, s').
  Proof.
    assert (G : forall m s, nonneg_table m -> (exists i, (i < nr m)%nat /\ rowsum m i = 0) -> exists s', mmap S (fun i => sim_flat (row m i) 0) (seq 0 (nr m)) s = (Raise ValueError, s')).
    { intros m s HN (i & Hi & Z). apply mmap_raise.
      - intros k Hk s0. apply in_seq in Hk. destruct (Rle_lt_or_eq_dec 0 (rowsum m k)) as [P|P]; [apply rowsum_nonneg; [exact HN|lia]| |].
        + left. destruct (sim_flat_ok (row m k) 0 s0) as (o & s1 & E & _); [|rewrite lsum_row; exact P|exists o, s1; exact E]. intros x Hx. apply in_row in Hx. destruct Hx as (j & Hj & ->). apply HN; [lia|exact Hj].
        + right. exists s0. apply sim_flat_zero. rewrite lsum_row. symmetry. exact P.
      - exists i. split; [apply in_seq; lia|]. intros s0. exists s0. apply sim_flat_zero. rewrite lsum_row. exact Z. }
    intros m s axis A HN H. unfold sim_2d_product_multinominal, mbind. destruct A as [-> | ->]; cbn [Z.eqb Pos.eqb] in *.
    - destruct (G (transp m) s) as (s' & E); [intros i j Hi Hj; apply HN; assumption|exact H|]. cbn [nr transp] in E. rewrite E. exists s'. reflexivity.
    - destruct (G m s HN H) as (s' & E). rewrite E. exists s'. reflexivity.
  Qed.
End SimP.

(** * Patefield *)
Lemma to_int32_id : forall z, int32 z -> to_int32 z = z.
Proof. intros z [A B]. unfold to_int32, int_min, int_max in *. rewrite Z.mod_small by lia. lia. Qed.
Lemma rint_whole : forall k : nat, ZnearestE (INR k) = Z.of_nat k.
Proof. intros k. rewrite INR_IZR_INZ. apply (Zrnd_IZR ZnearestE). Qed.
Lemma zsum_le : forall l x, (forall y, In y l -> (0 <= y)%Z) -> In x l -> (x <= zsum l)%Z.
Proof. induction l as [|y l IH]; intros x H Hx; [destruct Hx|]. cbn [zsum fold_right]. fold (zsum l). assert (0 <= zsum l)%Z. { clear Hx IH. assert (H' : forall z, In z l -> (0 <= z)%Z) by (intros; apply H; right; assumption). clear H. induction l as [|z l IHl]; [cbn; lia|]. cbn [zsum fold_right]. fold (zsum l). pose proof (H' z (or_introl eq_refl)). specialize (IHl (fun w Hw => H' w (or_intror Hw))). lia. }
  destruct Hx as [->|Hx]; [lia|]. specialize (IH x (fun z Hz => H z (or_intror Hz)) Hx). pose proof (H y (or_introl eq_refl)). lia. Qed.

(** the totals handed to the C++ routine *)
Definition rtot (m : mat) : list Z := map (fun i => to_int32 (ZnearestE (rowsum m i))) (seq 0 (nr m)).
Definition ctot (m : mat) : list Z := map (fun i => to_int32 (ZnearestE (colsum m i))) (seq 0 (nc m)).
Lemma tot_val : forall x, whole x -> x <= 2147483647 -> IZR (to_int32 (ZnearestE x)) = x.
Proof. intros x (k & ->) H. rewrite rint_whole, to_int32_id; [rewrite INR_IZR_INZ; reflexivity|]. rewrite INR_IZR_INZ in H. apply le_IZR in H. unfold int32, int_min, int_max. lia. Qed.
Section Totals.
  Variable m : mat.
  Hypothesis HN : nonneg_table m. Hypothesis WT : whole_totals m. Hypothesis SM : matsum m <= 2147483647.
  Hypothesis PR : positive_rowsums m. Hypothesis PC : positive_colsums m.
  Lemma rs_le : forall i, (i < nr m)%nat -> rowsum m i <= 2147483647.
  Proof. intros i Hi. apply Rle_trans with (matsum m); [|exact SM]. apply (lsum_le_elem _ (rowsum m) (seq 0 (nr m)) i); [|apply in_seq; lia]. intros k Hk. apply in_seq in Hk. apply Rlt_le, PR. lia. Qed.
  Lemma cs_le : forall i, (i < nc m)%nat -> colsum m i <= 2147483647.
  Proof. intros i Hi. apply Rle_trans with (matsum m); [|exact SM]. rewrite matsum_colsum. apply (lsum_le_elem _ (colsum m) (seq 0 (nc m)) i); [|apply in_seq; lia]. intros k Hk. apply in_seq in Hk. apply Rlt_le, PC. lia. Qed.
  Lemma rtot_sum : IZR (zsum (rtot m)) = matsum m.
  Proof. unfold rtot. rewrite zsum_map_IZR. apply lsum_ext. intros i Hi. apply in_seq in Hi. apply tot_val; [apply WT; lia|apply rs_le; lia]. Qed.
  Lemma ctot_sum : IZR (zsum (ctot m)) = matsum m.
  Proof. unfold ctot. rewrite zsum_map_IZR, matsum_colsum. apply lsum_ext. intros i Hi. apply in_seq in Hi. apply tot_val; [apply WT; lia|apply cs_le; lia]. Qed.
  Hypothesis SH : (2 <= nr m)%nat /\ (2 <= nc m)%nat.
  Lemma tot_valid : valid_totals (nr m) (nc m) (rtot m) (ctot m).
  Proof.
    split; [apply SH|]. split; [apply SH|]. unfold rtot, ctot. rewrite !map_length, !seq_length. split; [reflexivity|]. split; [reflexivity|]. split; [|split].
    - intros x Hx. apply in_map_iff in Hx. destruct Hx as (i & <- & Hi). apply in_seq in Hi. apply lt_IZR. rewrite tot_val; [apply PR; lia|apply WT; lia|apply rs_le; lia].
    - intros x Hx. apply in_map_iff in Hx. destruct Hx as (i & <- & Hi). apply in_seq in Hi. apply lt_IZR. rewrite tot_val; [apply PC; lia|apply WT; lia|apply cs_le; lia].
    - change (zsum (rtot m) = zsum (ctot m)). apply eq_IZR. rewrite rtot_sum, ctot_sum. reflexivity.
  Qed.
End Totals.
