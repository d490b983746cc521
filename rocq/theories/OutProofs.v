From Coq Require Import String ZArith List Bool Reals Lra Lia Psatz.
From Verif Require Import F64 Base Cells BinModel HistModel RSum StatsModel StatsProofs Num PhikModel BetaModel SpecBeta BetaProofs PropsBeta SpecSig SigModel SigProofs OutModel SpecOut.
Import ListNotations.
Open Scope R_scope.
Open Scope list_scope.

Lemma lsum_others : forall (f : nat -> R) k n, (k < n)%nat -> lsum f (seq 0 n) = f k + lsum f (others k n).
Proof.
  intros f k n H. unfold others.
  assert (G : forall s, (s <= k)%nat -> (k < s + n)%nat -> lsum f (seq s n) = f k + lsum f (filter (fun i => negb (Nat.eqb i k)) (seq s n))).
  { clear H. induction n as [|n IH]; intros s H1 H2; [lia|]. cbn [seq filter]. rewrite lsum_cons.
    destruct (Nat.eqb_spec s k) as [->|N].
    - cbn [negb]. f_equal. symmetry. f_equal.
      assert (A : forall l, (forall i, In i l -> (k < i)%nat) -> filter (fun i => negb (Nat.eqb i k)) l = l).
      { induction l as [|a l IHl]; intros Hl; [reflexivity|]. cbn [filter]. destruct (Nat.eqb_spec a k) as [->|]; [specialize (Hl k (or_introl eq_refl)); lia|].
        cbn [negb]. rewrite IHl; [reflexivity|]. intros i Hi. apply Hl. right. exact Hi. }
      apply A. intros i Hi. apply in_seq in Hi. lia.
    - cbn [negb]. rewrite lsum_cons, (IH (S s)) by lia. ring. }
  apply G; lia.
Qed.
Lemma in_others : forall i k n, In i (others k n) <-> (i < n)%nat /\ i <> k.
Proof.
  intros. unfold others. rewrite filter_In, in_seq, negb_true_iff, Nat.eqb_neq. split; [intros [A B]; split; [lia|exact B]|intros [A B]; split; [lia|exact B]].
Qed.

(** B, C and D of the code *)
Lemma B_spec : forall m i j, (j < nc m)%nat -> rowsum m i - el m i j = same_row m i j.
Proof. intros m i j Hj. unfold rowsum, same_row. rewrite (lsum_others (fun l => el m i l) j) by exact Hj. ring. Qed.
Lemma C_spec : forall m i j, (i < nr m)%nat -> colsum m j - el m i j = same_col m i j.
Proof. intros m i j Hi. unfold colsum, same_col. rewrite (lsum_others (fun k => el m k j) i) by exact Hi. ring. Qed.
Lemma D_spec : forall m i j, (i < nr m)%nat -> (j < nc m)%nat -> matsum m - same_row m i j - same_col m i j - el m i j = elsewhere m i j.
Proof.
  intros m i j Hi Hj. unfold matsum. rewrite (lsum_others _ i) by exact Hi.
  rewrite (lsum_ext _ (fun i0 => rowsum m i0) (fun k => el m k j + same_row m k j) (others i (nr m))).
  2:{ intros k _. rewrite <- B_spec by exact Hj. ring. }
  rewrite lsum_plus. rewrite <- (B_spec m i j) by exact Hj. unfold same_col, elsewhere, same_row. ring.
Qed.

Lemma estimate_spec : forall L m CI i j, (i < nr m)%nat -> (j < nc m)%nat ->
  estimate L m CI i j =
  let B := same_row m i j in let C := same_col m i j in let D := elsewhere m i j in
  if rltb 0 D then
    let* sB := get_uncertainty L B CI in let* sC := get_uncertainty L C CI in let* sD := get_uncertainty L D CI in
    Ok (Fin (B * C / D), Fin (sqrt ((sB * C / D) ^ 2 + (sC * B / D) ^ 2 + (sD * (B * C / D) / D) ^ 2)))
  else Ok (NaN, NaN).
Proof.
  intros L m CI i j Hi Hj. unfold estimate. cbv zeta. rewrite (B_spec m i j Hj), (C_spec m i j Hi), (D_spec m i j Hi Hj). reflexivity.
Qed.

Lemma mapM_nth : forall A B (f : A -> res B) l t i d d', mapM f l = Ok t -> (i < length l)%nat -> f (nth i l d) = Ok (nth i t d').
Proof.
  intros A B f l. induction l as [|a l IH]; intros t i d d' H Hi; [simpl in Hi; lia|].
  cbn [mapM] in H. destruct (f a) as [b|e] eqn:Ea; [|discriminate]. cbn [rbind] in H. destruct (mapM f l) as [t'|e] eqn:El; [|discriminate].
  cbn [rbind] in H. inversion H; subst. destruct i as [|i]; [exact Ea|]. cbn [nth]. apply IH; [reflexivity|simpl in Hi; lia].
Qed.
Lemma mapM_length : forall A B (f : A -> res B) l t, mapM f l = Ok t -> length t = length l.
Proof.
  intros A B f l. induction l as [|a l IH]; intros t H; cbn [mapM] in H; [inversion H; reflexivity|].
  destruct (f a); [|discriminate]. cbn [rbind] in H. destruct (mapM f l); [|discriminate]. cbn [rbind] in H. inversion H. cbn. rewrite (IH _ eq_refl). reflexivity.
Qed.
Lemma mapM_fails : forall A B (f : A -> res B) l e, mapM f l = Raise e -> exists a, In a l /\ f a = Raise e.
Proof.
  intros A B f l. induction l as [|a l IH]; intros e H; cbn [mapM] in H; [discriminate|].
  destruct (f a) eqn:E.
  - cbn [rbind] in H. destruct (mapM f l) eqn:El; [discriminate|]. cbn [rbind] in H. inversion H; subst. destruct (IH _ eq_refl) as (x & Hx & Ex). exists x. split; [right; exact Hx|exact Ex].
  - cbn [rbind] in H. inversion H; subst. exists a. split; [left; reflexivity|exact E].
Qed.
Lemma mapM_fails' : forall A B (f : A -> res B) l a e, In a l -> f a = Raise e -> exists e', mapM f l = Raise e'.
Proof.
  intros A B f l. induction l as [|b l IH]; intros a e Hin E; [contradiction|]. cbn [mapM].
  destruct (f b) eqn:Eb; [|eexists; reflexivity]. cbn [rbind]. destruct Hin as [->|Hin]; [congruence|].
  destruct (IH a e Hin E) as [e' ->]. eexists. reflexivity.
Qed.

Lemma estimates_nth : forall L m CI t i j, get_independent_frequency_estimates L m CI = Ok t -> (i < nr m)%nat -> (j < nc m)%nat ->
  length t = nr m /\ length (nth i t []) = nc m /\ estimate L m CI i j = Ok (nth j (nth i t []) (NaN, NaN)).
Proof.
  intros L m CI t i j H Hi Hj. unfold get_independent_frequency_estimates in H.
  pose proof (mapM_length _ _ _ _ _ H) as Len. unfold idx in *. rewrite seq_length in Len. split; [exact Len|].
  pose proof (mapM_nth _ _ _ _ _ i 0%nat [] H ltac:(rewrite seq_length; exact Hi)) as R. rewrite seq_nth in R by exact Hi. simpl plus in R. cbv beta in R.
  split; [rewrite (mapM_length _ _ _ _ _ R), seq_length; reflexivity|].
  pose proof (mapM_nth _ _ _ _ _ j 0%nat (NaN, NaN) R ltac:(rewrite seq_length; exact Hj)) as R2. rewrite seq_nth in R2 by exact Hj. exact R2.
Qed.

(** * mid-p *)
Lemma mid_p_fin : forall L n e s p q, poisson_obs_p L n e s = Fin p -> poisson_obs_p L (S n) e s = Fin q ->
  poisson_obs_mid_p L n e s = Fin ((p + q) / 2).
Proof. intros L n e s p q H1 H2. unfold poisson_obs_mid_p. rewrite H1, H2. unfold nsub. cbn [nneg nadd nscale]. f_equal. lra. Qed.

Lemma linnemann_range : forall nexp e, 0 < e -> 1 <= fst (linnemann nexp e) /\ 0 < snd (linnemann nexp e) < 1.
Proof.
  intros nexp e He. unfold linnemann.
  set (alt := match nexp with Fin m => if rltb 0 m then m else e | _ => e end).
  assert (Ha : 0 < alt) by (unfold alt; destruct nexp as [|m| |]; try exact He; destruct (rltb 0 m) eqn:E; [apply rltb_true in E; exact E|exact He]).
  cbn [fst snd]. set (tau := alt / (e * e)). assert (Ht : 0 < tau) by (unfold tau; apply Rdiv_lt_0_compat; nra).
  split; [nra|]. split; [apply Rdiv_lt_0_compat; lra|]. unfold Rdiv. rewrite Rmult_1_l. rewrite <- Rinv_1. apply Rinv_lt_contravar; lra.
Qed.

(** * logarithms *)
Lemma nlogn_fin : forall r, 0 < r -> nlogn (Fin r) = Fin (ln r). Proof. intros. cbn. apply nlog_pos. assumption. Qed.
Lemma nlog_0 : nlog 0 = MInf.
Proof. unfold nlog. rewrite (proj2 (rltb_false _ _)) by lra. rewrite (proj2 (reqb_true 0 0)) by reflexivity. reflexivity. Qed.

Lemma log_mean_spec : forall p q, 0 < p -> 0 <= q -> log_mean (nlogn (Fin p)) (nlogn (Fin q)) = nlogn (Fin ((p + q) / 2)).
Proof.
  intros p q Hp Hq. rewrite (nlogn_fin p Hp), (nlogn_fin ((p + q) / 2)) by lra. unfold log_mean, nsub. cbn [nneg].
  destruct (Rle_lt_or_eq_dec 0 q Hq) as [H|<-].
  - rewrite (nlogn_fin q H). cbn [nadd nexpn].
    assert (E : exp (ln q + - ln p) = q / p) by (rewrite exp_plus, exp_Ropp, !exp_ln by assumption; reflexivity). rewrite E.
    assert (0 < q / p) by (apply Rdiv_lt_0_compat; assumption).
    rewrite nlogn_fin by lra. cbn [nadd]. f_equal.
    replace ((p + q) / 2) with (1 / 2 * p * (1 + q / p)) by (field; lra).
    rewrite !ln_mult by nra. reflexivity.
  - cbn [nlogn]. rewrite nlog_0. cbn [nadd nexpn]. rewrite nlogn_fin by lra. cbn [nadd]. f_equal.
    rewrite Rplus_0_r, ln_1. replace ((p + 0) / 2) with (1 / 2 * p) by field. rewrite ln_mult by lra. ring.
Qed.
Lemma log_mean_both_minf : log_mean MInf MInf = NaN. Proof. reflexivity. Qed.

Lemma log_tail_spec : forall L n nexp s,
  log_poisson_obs_p L n nexp s = (let* p := tail_with L (incompbeta (gammaln L)) n nexp s in Ok (nlogn p, nlogn (one_minus p))).
Proof.
  intros L [|k] nexp s; cbn [log_poisson_obs_p tail_with].
  - cbn [rbind nlogn one_minus]. rewrite nlog_pos by lra. rewrite ln_1. replace (1 - 1) with 0 by ring. rewrite nlog_0. reflexivity.
  - destruct (err_positive s) as [e|] eqn:E; [|reflexivity].
    assert (He : 0 < e).
    { unfold err_positive in E. destruct s as [|s| |]; try discriminate. destruct (rltb 0 s) eqn:Es; [|discriminate]. inversion E; subst. apply rltb_true in Es. exact Es. }
    destruct (linnemann_range nexp e He) as [Hb Hx]. destruct (linnemann nexp e) as [b x]. cbn [fst snd] in *.
    apply C64_logarithms; [apply lt_0_INR; lia|lra|lra].
Qed.
