(** C52-C54: which distribution is sampled, from which random state. *)
From Coq Require Import String ZArith List Bool Reals Lra Lia.
From Flocq Require Import Core.
Import ListNotations.
From Verif Require Import F64 Base RSum StatsModel SpecStats StatsProofs StatsProofs2 PropsStats SpecRcont RcontModel RcontProofs2 PropsRcont SimModel SpecSim SimProofs PropsSim.
Open Scope list_scope.
Open Scope R_scope.

Lemma nth_flat_map : forall B (g : nat -> list B) c d r i j, (forall a, length (g a) = c) -> (i < r)%nat -> (j < c)%nat ->
  nth (i * c + j) (flat_map g (seq 0 r)) d = nth j (g i) d.
Proof.
  intros B g c d r i j L Hi Hj. assert (G : forall r k, (i < r)%nat -> nth (i * c + j) (flat_map g (seq k r)) d = nth j (g (k + i)%nat) d).
  { revert j Hj. induction i as [|i IH]; intros j Hj r0 k Hr; destruct r0 as [|r0]; try lia; cbn [seq flat_map].
    - rewrite app_nth1 by (rewrite L; lia). replace (k + 0)%nat with k by lia. reflexivity.
    - rewrite app_nth2 by (rewrite L; lia). rewrite L. replace (S i * c + j - c)%nat with (i * c + j)%nat by lia. rewrite IH by lia. f_equal. f_equal. lia. }
  rewrite G by exact Hi. reflexivity.
Qed.
Lemma ravel_nth : forall m i j, (i < nr m)%nat -> (j < nc m)%nat -> nth (i * nc m + j) (ravel m) 0 = el m i j.
Proof.
  intros m i j Hi Hj. unfold ravel. rewrite (nth_flat_map R (row m) (nc m) 0 (nr m) i j) by (try apply row_length; assumption). unfold row.
  rewrite nth_indep with (d' := el m i 0%nat) by (rewrite map_length, seq_length; exact Hj). rewrite (map_nth (fun j => el m i j)), seq_nth by exact Hj. reflexivity.
Qed.

Section Props.
  Variable S : Type.
  Variable multinomial : Z -> list R -> S -> res (list Z) * S.
  Variable randint : Z -> Z -> S -> Z * S.
  Variables (libm_exp libm_log : f64 -> f64) (uninit : nat -> list Z) (ib0 : Z) (fuel : nat).
  Notation sim_data := (sim_data S multinomial randint libm_exp libm_log uninit ib0 fuel).
  Notation sim_chi2_distribution := (sim_chi2_distribution S multinomial randint libm_exp libm_log uninit ib0 fuel).

  (** a chain of draws: each starts in the state the previous one left *)
  Definition chain {A} (n : nat) (draw : nat -> S -> res A * S) (s s' : S) (result : nat -> A -> Prop) : Prop :=
    exists st : nat -> S, st 0%nat = s /\ st n = s' /\ forall k, (k < n)%nat -> exists a, draw k (st k) = (Ok a, st (Datatypes.S k)) /\ result k a.

  Lemma mmap_chain : forall A B (f : A -> SimModel.M S B) (d : B) g l s bs s', mmap S f (map g l) s = (Ok bs, s') ->
    length bs = length l /\ exists st : nat -> S, st 0%nat = s /\ st (length l) = s' /\ forall k, (k < length l)%nat -> f (g (nth k l 0%nat)) (st k) = (Ok (nth k bs d), st (Datatypes.S k)).
  Proof.
    intros A B f d g. induction l as [|a l IH]; intros s bs s' H.
    - cbn in H. unfold ret in H. split; [replace bs with (@nil B) by congruence; reflexivity|]. exists (fun _ => s). split; [reflexivity|]. split; [cbn; congruence|]. intros k Hk. cbn in Hk. lia.
    - cbn [map mmap] in H. unfold mbind in H. destruct (f (g a) s) as [[b|] s1] eqn:E; [|discriminate]. destruct (mmap S f (map g l) s1) as [[bs1|] s2] eqn:E1; [|discriminate]. unfold ret in H.
      assert (EB : bs = b :: bs1) by congruence. assert (ES : s2 = s') by congruence. subst bs s2. destruct (IH _ _ _ E1) as (LB & st & S0 & S1 & HK). split; [cbn; congruence|].
      exists (fun k => match k with 0%nat => s | Datatypes.S k' => st k' end). split; [reflexivity|]. split; [exact S1|]. intros [|k] Hk.
      + cbn [nth]. rewrite E, S0. reflexivity.
      + cbn [nth length] in *. apply HK. lia.
  Qed.

  (** C52: one multinomial draw, with the table total (or ndata) trials and probabilities cell/total, cell by cell in row-major order *)
  Theorem C52_probabilities : forall m ndata s, nonneg_table m -> has_records m ->
    let trials := if (0 <? ndata)%Z then ndata else Ztrunc (matsum m) in
    exists probs, length probs = (nr m * nc m)%nat /\ (forall i j, (i < nr m)%nat -> (j < nc m)%nat -> nth (i * nc m + j) probs 0 = el m i j / matsum m) /\
      match multinomial trials probs s with
      | (Ok l, s') => exists t, sim_2d_data S multinomial m ndata s = (Ok t, s') /\ nr t = nr m /\ nc t = nc m /\
                        forall i j, (i < nr m)%nat -> (j < nc m)%nat -> el t i j = IZR (nth (i * nc m + j) l 0%Z)
      | (Raise e, s') => sim_2d_data S multinomial m ndata s = (Raise e, s')
      end.
  Proof.
    intros m nd s HN HR trials. pose proof (matsum_pos m HN HR) as P. exists (map (fun x => x / matsum m) (ravel m)). split; [rewrite map_length; apply ravel_length|]. split.
    - intros i j Hi Hj. rewrite nth_indep with (d' := 0 / matsum m) by (rewrite map_length, ravel_length; nia). rewrite (map_nth (fun x => x / matsum m)), ravel_nth by assumption. reflexivity.
    - unfold sim_2d_data, mbind, sim_flat. rewrite lsum_ravel. rewrite (proj2 (reqb_false (matsum m) 0)) by lra.
      assert (E : (if rleb (if (nd <=? 0)%Z then matsum m else IZR nd) 0 then true else false) = false /\ Ztrunc (if (nd <=? 0)%Z then matsum m else IZR nd) = trials).
      { unfold trials. destruct (Z.leb_spec nd 0) as [L|L].
        - rewrite (proj2 (Z.ltb_ge _ _) L), (proj2 (rleb_false _ _)) by lra. split; reflexivity.
        - rewrite (proj2 (Z.ltb_lt _ _) L), (proj2 (rleb_false _ _)) by (apply IZR_lt; exact L). split; [reflexivity|apply Ztrunc_IZR]. }
      destruct E as [E1 E2]. destruct (rleb (if (nd <=? 0)%Z then matsum m else IZR nd) 0); [discriminate|]. rewrite E2.
      destruct (multinomial trials _ s) as [[l|e] s']; [|reflexivity]. eexists. split; [reflexivity|]. split; [reflexivity|]. split; [reflexivity|]. reflexivity.
  Qed.

  Lemma flat_draw : forall l s a s', 0 < lsum (fun x => x) l -> sim_flat S multinomial l 0 s = (Ok a, s') -> multinomial (Ztrunc (lsum (fun x => x) l)) (map (fun x => x / lsum (fun x => x) l) l) s = (Ok a, s').
  Proof.
    intros l s a s' P H. unfold sim_flat in H. cbn [Z.leb Z.compare] in H. rewrite (proj2 (rleb_false _ _) P), (proj2 (reqb_false _ _)) in H by lra. exact H.
  Qed.
  Lemma axis1_chain : forall m s t s', positive_rowsums m -> sim_2d_product_multinominal S multinomial m 1 s = (Ok t, s') ->
    nr t = nr m /\ nc t = nc m /\ chain (nr m) (fun i => multinomial (Ztrunc (rowsum m i)) (map (fun j => el m i j / rowsum m i) (seq 0 (nc m)))) s s' (fun i l => forall j, el t i j = IZR (nth j l 0%Z)).
  Proof.
    intros m s t s' PR H. unfold sim_2d_product_multinominal in H. cbn [Z.eqb Pos.eqb] in H. unfold mbind in H.
    destruct (mmap S (fun i => sim_flat S multinomial (row m i) 0) (seq 0 (nr m)) s) as [[rs|] s1] eqn:E; [|discriminate]. unfold ret in H. assert (ET : t = of_rows (nc m) rs) by congruence. assert (ES : s1 = s') by congruence. subst t s1.
    rewrite <- (map_id (seq 0 (nr m))) in E. apply (mmap_chain _ _ _ []) in E. destruct E as (LR & st & S0 & S1 & HK). rewrite seq_length in LR, S1, HK. cbn [of_rows nr nc].
    split; [exact LR|]. split; [reflexivity|]. exists st. split; [exact S0|]. split; [exact S1|]. intros k Hk. exists (nth k rs []). specialize (HK k Hk). rewrite seq_nth in HK by exact Hk. cbn [plus] in HK.
    apply flat_draw in HK; [|rewrite lsum_row; apply PR; exact Hk]. rewrite lsum_row in HK. split; [|reflexivity]. unfold row in HK. rewrite map_map in HK. exact HK.
  Qed.
  (** C53: one multinomial draw per row (per column), in order, each with the row (column) total trials and probabilities cell/total *)
  Theorem C53_col_product_draws : forall cpp m s t s', positive_rowsums m -> sim_data cpp m "col_product_multinominal" s = (Ok t, s') ->
    nr t = nr m /\ nc t = nc m /\
    chain (nr m) (fun i => multinomial (Ztrunc (rowsum m i)) (map (fun j => el m i j / rowsum m i) (seq 0 (nc m)))) s s' (fun i l => forall j, el t i j = IZR (nth j l 0%Z)).
  Proof. intros cpp m s t s' PR H. apply axis1_chain; assumption. Qed.
  Theorem C53_row_product_draws : forall cpp m s t s', positive_colsums m -> sim_data cpp m "row_product_multinominal" s = (Ok t, s') ->
    nr t = nr m /\ nc t = nc m /\
    chain (nc m) (fun j => multinomial (Ztrunc (colsum m j)) (map (fun i => el m i j / colsum m j) (seq 0 (nr m)))) s s' (fun j l => forall i, el t i j = IZR (nth i l 0%Z)).
  Proof.
    intros cpp m s t s' PC H. change (sim_data cpp m "row_product_multinominal" s) with (sim_2d_product_multinominal S multinomial m 0 s) in H.
    assert (X : exists t0, t = transp t0 /\ sim_2d_product_multinominal S multinomial (transp m) 1 s = (Ok t0, s')).
    { unfold sim_2d_product_multinominal in *. cbn [Z.eqb Pos.eqb] in *. unfold mbind, ret in *. cbn [nr nc transp] in *.
      destruct (mmap S _ (seq 0 (nc m)) s) as [[rs|] s1]; [|discriminate]. exists (of_rows (nr m) rs). split; congruence. }
    destruct X as (t0 & -> & X). apply axis1_chain in X; [|exact PC]. destruct X as (A & B & C). split; [exact B|]. split; [exact A|]. exact C.
  Qed.

  (** C54: worker k simulates from its own random state; sequentially every simulation starts where the previous one stopped *)
  Theorem C54_workers : forall cpp clamp values nsim l method (alt : bool) w s chi2s s',
    sim_chi2_distribution cpp clamp values nsim l method alt (Some w) s = (Ok chi2s, s') ->
    s' = s /\ length chi2s = Z.to_nat nsim /\
    forall k, (k < Z.to_nat nsim)%nat -> exists t s1, sim_data cpp (if alt then values else get_dependent_frequency_estimates values) method (w k) = (Ok t, s1) /\ get_chi2 clamp t l = Ok (nth k chi2s 0).
  Proof.
    intros cpp clamp m nsim l method alt w s chi2s s' H. unfold SimModel.sim_chi2_distribution in H. set (e := if alt then m else get_dependent_frequency_estimates m) in *. unfold lift in H.
    assert (ES : s' = s) by congruence. split; [exact ES|]. assert (E : mapM (fun k => fst (simulate_and_fit S multinomial randint libm_exp libm_log uninit ib0 fuel cpp clamp e method l (w k))) (seq 0 (Z.to_nat nsim)) = Ok chi2s) by congruence.
    apply Base.mapM_ok in E. assert (G : forall n a, Forall2 (fun k x => fst (simulate_and_fit S multinomial randint libm_exp libm_log uninit ib0 fuel cpp clamp e method l (w k)) = Ok x) (seq a n) chi2s ->
      length chi2s = n /\ forall k, (k < n)%nat -> fst (simulate_and_fit S multinomial randint libm_exp libm_log uninit ib0 fuel cpp clamp e method l (w (a + k)%nat)) = Ok (nth k chi2s 0)).
    { clear. revert chi2s. intros chi2s n. revert chi2s. induction n as [|n IH]; intros chi2s a F; cbn [seq] in F; inversion F as [|? ? ? ? X Y]; subst; [split; [reflexivity|intros k Hk; lia]|].
      destruct (IH _ _ Y) as [L K]. split; [cbn; congruence|]. intros [|k] Hk; cbn [nth]; [rewrite Nat.add_0_r; exact X|]. replace (a + Datatypes.S k)%nat with (Datatypes.S a + k)%nat by lia. apply K. lia. }
    destruct (G _ _ E) as [L K]. split; [exact L|]. intros k Hk. specialize (K k Hk). cbn [plus] in K. unfold simulate_and_fit, mbind, lift in K.
    destruct (sim_data cpp e method (w k)) as [[t|] s1] eqn:T; [|discriminate]. exists t, s1. split; [reflexivity|exact K].
  Qed.
  Theorem C54_sequential : forall cpp clamp values nsim l method (alt : bool) s chi2s s',
    sim_chi2_distribution cpp clamp values nsim l method alt None s = (Ok chi2s, s') ->
    length chi2s = Z.to_nat nsim /\
    chain (Z.to_nat nsim) (fun _ => sim_data cpp (if alt then values else get_dependent_frequency_estimates values) method) s s' (fun k t => get_chi2 clamp t l = Ok (nth k chi2s 0)).
  Proof.
    intros cpp clamp m nsim l method alt s chi2s s' H. unfold SimModel.sim_chi2_distribution in H. set (e := if alt then m else get_dependent_frequency_estimates m) in *.
    rewrite <- (map_id (seq 0 (Z.to_nat nsim))) in H. apply (mmap_chain _ _ _ 0) in H. rewrite seq_length in H. destruct H as (L & st & S0 & S1 & HK). split; [exact L|]. exists st. split; [exact S0|]. split; [exact S1|].
    intros k Hk. specialize (HK k Hk). unfold simulate_and_fit, mbind, lift in HK. destruct (sim_data cpp e method (st k)) as [[t|] s1] eqn:T; [|discriminate]. exists t. split; [congruence|congruence].
  Qed.
End Props.
Print Assumptions C52_probabilities. Print Assumptions C53_col_product_draws. Print Assumptions C53_row_product_draws. Print Assumptions C54_workers. Print Assumptions C54_sequential.
(** the hypotheses are met by the data of C54_hypotheses *)
Example C52_case : exists t s', sim_2d_data Z first_cell ex_data 0 5%Z = (Ok t, s') /\ el t 0 0 = 6 /\ el t 0 1 = 0.
Proof.
  assert (HN : nonneg_table ex_data) by (destruct C54_hypotheses as (_ & _ & _ & G); apply (G "multinominal"%string)).
  assert (HR : has_records ex_data) by (destruct C54_hypotheses as (_ & _ & _ & G); exact (good_records _ _ _ _ _ _ _ _ _ (G "multinominal"%string))).
  destruct (C52_probabilities Z first_cell ex_data 0 5%Z HN HR) as (probs & L & P & H).
  assert (M : matsum ex_data = 6) by (unfold matsum, rowsum, lsum; simpl; lra).
  assert (TR : Ztrunc (matsum ex_data) = 6%Z) by (rewrite M; apply (Ztrunc_IZR 6)).
  cbn [Z.ltb Z.compare] in H. rewrite TR in H. destruct probs as [|p probs]; [discriminate|]. cbn [first_cell] in H. destruct H as (t & E & _ & _ & T). exists t, 5%Z. split; [exact E|]. split.
  - rewrite (T 0%nat 0%nat) by (cbn; lia). reflexivity.
  - rewrite (T 0%nat 1%nat) by (cbn; lia). destruct probs; [discriminate|]. reflexivity.
Qed.
