(** Rounding in the simulation of tables (C106). *)
From Coq Require Import ZArith List Bool Reals Lia Lra Psatz Permutation.
Import ListNotations.
From Flocq Require Import Core BinarySingleNaN.
From Verif Require Import F64 Base RSum StatsModel SpecStats StatsProofs LinspaceProofs BrentFModel BrentFProofs Chi2FModel SpecChi2F Chi2FProofs RcontModel RcontProofs SimModel SimFModel.
Open Scope R_scope.

(** a rounded sum of nonnegative numbers is not below any of them *)
Lemma added_ge : forall l s, added l s -> (forall x, In x l -> nonneg64 x) -> INR (length l) * u53 <= 1 / 4 -> lsum f2R l <= b2 500 -> forall x, In x l -> f2R x <= f2R s.
Proof.
  pose proof u53_pos as U. induction 1 as [|x|l1 l2 s1 s2 H1 IH1 H2 IH2|l l' s H IH P]; intros NN LE BD z Hz.
  - destruct Hz.
  - destruct Hz as [<-|[]]. lra.
  - rewrite app_length, plus_INR in *. rewrite lsum_app in *. pose proof (pos_INR (length l1)) as N1. pose proof (pos_INR (length l2)) as N2.
    assert (NN1 : forall x, In x l1 -> nonneg64 x) by (intros a Ia; apply NN, in_or_app; left; exact Ia). assert (NN2 : forall x, In x l2 -> nonneg64 x) by (intros a Ia; apply NN, in_or_app; right; exact Ia).
    assert (P1 : 0 <= lsum f2R l1) by (apply lsum_nonneg; intros a Ia; apply NN1, Ia). assert (P2 : 0 <= lsum f2R l2) by (apply lsum_nonneg; intros a Ia; apply NN2, Ia).
    assert (L1 : INR (length l1) * u53 <= 1 / 4) by nra. assert (L2 : INR (length l2) * u53 <= 1 / 4) by nra.
    destruct (added_bounds l1 s1 H1 NN1 L1 ltac:(lra)) as [F1 B1]. destruct (added_bounds l2 s2 H2 NN2 L2 ltac:(lra)) as [F2 B2].
    assert (Z1 : 0 <= lsum f2R l1 * (1 - INR (length l1) * u53)) by (apply Rmult_le_pos; lra). assert (Z2 : 0 <= lsum f2R l2 * (1 - INR (length l2) * u53)) by (apply Rmult_le_pos; lra).
    assert (U1 : lsum f2R l1 * (1 + 2 * INR (length l1) * u53) <= lsum f2R l1 * 2) by (apply Rmult_le_compat_l; lra). assert (U2 : lsum f2R l2 * (1 + 2 * INR (length l2) * u53) <= lsum f2R l2 * 2) by (apply Rmult_le_compat_l; lra).
    destruct (fplus_spec s1 s2 501 F1 F2 ltac:(lia)) as [V F]. { rewrite Rabs_pos_eq by lra. replace (b2 501) with (2 * b2 500) by (change 501%Z with (1 + 500)%Z; rewrite bpow_plus; reflexivity). lra. }
    rewrite V. apply in_app_or in Hz. destruct Hz as [Hz|Hz].
    + eapply Rle_trans; [apply (IH1 NN1 L1 ltac:(lra) z Hz)|]. apply rnd_lb; [apply fmt_B2R|lra].
    + eapply Rle_trans; [apply (IH2 NN2 L2 ltac:(lra) z Hz)|]. apply rnd_lb; [apply fmt_B2R|lra].
  - rewrite <- (Permutation_length P), <- (lsum_perm _ f2R _ _ P) in *. apply IH; try assumption.
    + intros x Hx. apply NN. eapply Permutation_in; eassumption.
    + eapply Permutation_in; [apply Permutation_sym; exact P|exact Hz].
Qed.

(** ** Kahan's summation *)
Definition kinv (k : nat) (A : R) (sc : f64 * f64) : Prop :=
  ffin (fst sc) = true /\ ffin (snd sc) = true /\ Rabs (f2R (snd sc)) <= 8 * u53 /\ Rabs (f2R (fst sc) - f2R (snd sc) - A) <= 3 * u53 * A + INR k * (64 * (u53 * u53)).
Lemma kahan_step_ok : forall k A sc d, kinv k A sc -> nonneg64 d -> 0 <= A -> A + f2R d <= 3 / 2 -> (k <= 8192)%nat -> kinv (S k) (A + f2R d) (kahan_step sc d).
Proof.
  intros k A [s c] d (Fs & Fc & Bc & BE) [Fd Pd] PA BA HK. cbn [fst snd] in *. pose proof u53_pos as U.
  assert (U2 : 0 <= u53 * u53 <= u53 / 1000000000) by nra.
  assert (KB : 0 <= INR k * (64 * (u53 * u53)) <= u53 / 1000). { pose proof (pos_INR k). apply le_INR in HK. replace (INR 8192) with 8192 in HK by (rewrite INR_IZR_INZ; reflexivity). split; [apply Rmult_le_pos; lra|]. apply Rle_trans with (8192 * (64 * (u53 * u53))); [apply Rmult_le_compat_r; lra|lra]. }
  assert (UA : 0 <= u53 * A <= 3 / 2 * u53) by nra. assert (UD : 0 <= u53 * f2R d <= 3 / 2 * u53) by nra.
  unfold kahan_step. cbn zeta. set (D := f2R d) in *. set (ks := INR k * (64 * (u53 * u53))) in *.
  assert (F4 : b2 3 = 8) by reflexivity. apply Rabs_le_inv in Bc. apply Rabs_le_inv in BE.
  destruct (fminus_spec d c 3 Fd Fc ltac:(lia)) as [Vy Fy]; [rewrite F4; fold D; apply Rabs_le; lra|]. fold D in Vy.
  pose proof (rnd_minus_err _ _ (fmt_B2R d) (fmt_B2R c)) as Ey. change (B2R d) with (f2R d) in Ey. change (B2R c) with (f2R c) in Ey. fold D in Ey. rewrite <- Vy in Ey. set (y := fminus d c) in *.
  assert (Y0 : Rabs (D - f2R c) <= D + 8 * u53) by (apply Rabs_le; lra).
  assert (Y1 : u53 * Rabs (D - f2R c) <= u53 * D + 8 * (u53 * u53)) by (apply Rle_trans with (u53 * (D + 8 * u53)); [apply Rmult_le_compat_l; lra|lra]).
  apply Rabs_le_inv in Ey. set (gy := f2R y - (D - f2R c)) in *. assert (GY : - (u53 * D + 8 * (u53 * u53)) <= gy <= u53 * D + 8 * (u53 * u53)) by lra. assert (YE : f2R y = D - f2R c + gy) by (unfold gy; ring).
  set (ge := f2R s - f2R c - A) in *. assert (SE : f2R s = A + f2R c + ge) by (unfold ge; ring).
  assert (SY : f2R s + f2R y = A + D + ge + gy) by (rewrite SE, YE; ring).
  assert (SYB : Rabs (f2R s + f2R y) <= 16 / 10) by (rewrite SY; apply Rabs_le; lra).
  destruct (fplus_spec s y 3 Fs Fy ltac:(lia)) as [Vt Ft]; [rewrite F4; lra|].
  pose proof (rnd_plus_err _ _ (fmt_B2R s) (fmt_B2R y)) as Et. change (B2R s) with (f2R s) in Et. change (B2R y) with (f2R y) in Et. rewrite <- Vt in Et. set (t := fplus s y) in *.
  assert (T1 : u53 * Rabs (f2R s + f2R y) <= 16 / 10 * u53) by (rewrite (Rmult_comm (16 / 10)); apply Rmult_le_compat_l; lra).
  apply Rabs_le_inv in Et. set (d1 := f2R t - (f2R s + f2R y)) in *. assert (D1 : - (16 / 10 * u53) <= d1 <= 16 / 10 * u53) by lra. assert (TE : f2R t = f2R s + f2R y + d1) by (unfold d1; ring).
  assert (TS : f2R t - f2R s = f2R y + d1) by (rewrite TE; ring).
  assert (TSB : Rabs (f2R t - f2R s) <= D + 12 * u53) by (rewrite TS, YE; apply Rabs_le; lra).
  destruct (fminus_spec t s 3 Ft Fs ltac:(lia)) as [Va Fa]; [rewrite F4; lra|].
  pose proof (rnd_minus_err _ _ (fmt_B2R t) (fmt_B2R s)) as Ea. change (B2R t) with (f2R t) in Ea. change (B2R s) with (f2R s) in Ea. rewrite <- Va in Ea. set (a := fminus t s) in *.
  assert (A1 : u53 * Rabs (f2R t - f2R s) <= u53 * D + 12 * (u53 * u53)) by (apply Rle_trans with (u53 * (D + 12 * u53)); [apply Rmult_le_compat_l; lra|lra]).
  apply Rabs_le_inv in Ea. set (d2 := f2R a - (f2R t - f2R s)) in *. assert (D2 : - (u53 * D + 12 * (u53 * u53)) <= d2 <= u53 * D + 12 * (u53 * u53)) by lra. assert (AE : f2R a = f2R y + d1 + d2) by (unfold d2; lra).
  assert (AY : f2R a - f2R y = d1 + d2) by (rewrite AE; ring). assert (AYB : Rabs (f2R a - f2R y) <= 32 / 10 * u53) by (rewrite AY; apply Rabs_le; lra).
  destruct (fminus_spec a y 3 Fa Fy ltac:(lia)) as [Vc Fc']; [rewrite F4; lra|].
  pose proof (rnd_minus_err _ _ (fmt_B2R a) (fmt_B2R y)) as Ec. change (B2R a) with (f2R a) in Ec. change (B2R y) with (f2R y) in Ec. rewrite <- Vc in Ec. set (c' := fminus a y) in *.
  assert (C1 : u53 * Rabs (f2R a - f2R y) <= 32 / 10 * (u53 * u53)) by (apply Rle_trans with (u53 * (32 / 10 * u53)); [apply Rmult_le_compat_l; lra|lra]).
  apply Rabs_le_inv in Ec. set (d3 := f2R c' - (f2R a - f2R y)) in *. assert (D3 : - (32 / 10 * (u53 * u53)) <= d3 <= 32 / 10 * (u53 * u53)) by lra. assert (CE : f2R c' = d1 + d2 + d3) by (unfold d3; lra).
  unfold kinv. cbn [fst snd]. split; [exact Ft|]. split; [exact Fc'|]. split; [rewrite CE; apply Rabs_le; lra|].
  replace (f2R t - f2R c' - (A + D)) with (ge + gy - d2 - d3) by (rewrite TE, CE, SY; ring). rewrite S_INR, Rmult_plus_distr_r, Rmult_1_l. fold ks. apply Rabs_le. lra.
Qed.
Lemma kahan_fold : forall l k A sc, kinv k A sc -> (forall x, In x l -> nonneg64 x) -> 0 <= A -> A + lsum f2R l <= 3 / 2 -> (k + length l <= 8192)%nat -> kinv (k + length l) (A + lsum f2R l) (fold_left kahan_step l sc).
Proof.
  induction l as [|d l IH]; intros k A sc I NN PA BA HK; cbn [fold_left length].
  - rewrite lsum_nil, Rplus_0_r, Nat.add_0_r. exact I.
  - rewrite lsum_cons in *. cbn [length] in HK. assert (PL : 0 <= lsum f2R l) by (apply lsum_nonneg; intros x Hx; apply NN; right; exact Hx). pose proof (proj2 (NN d (or_introl eq_refl))) as PD.
    replace (k + S (length l))%nat with (S k + length l)%nat by lia. rewrite <- Rplus_assoc. apply IH; [| |lra|lra|lia].
    + apply kahan_step_ok; try assumption; [apply NN; left; reflexivity|lra|lia].
    + intros x Hx. apply NN. right. exact Hx.
Qed.
Lemma kahan_ok : forall l, (forall x, In x l -> nonneg64 x) -> lsum f2R l <= 3 / 2 -> (length l <= 8192)%nat -> ffin (kahan_sum l) = true /\ Rabs (f2R (kahan_sum l) - lsum f2R l) <= 13 * u53.
Proof.
  intros [|d l] NN BD HK; pose proof u53_pos as U.
  - split; [reflexivity|]. cbn [kahan_sum]. rewrite lsum_nil. change (f2R fzero) with 0. unfold Rminus. rewrite Ropp_0, Rplus_0_r, Rabs_R0. lra.
  - cbn [kahan_sum]. rewrite lsum_cons in *. cbn [length] in HK. destruct (NN d (or_introl eq_refl)) as [FD PD].
    assert (PL : 0 <= lsum f2R l) by (apply lsum_nonneg; intros x Hx; apply NN; right; exact Hx).
    pose proof (kahan_fold l 0 (f2R d) (d, fzero)) as K. destruct K as (K1 & K2 & K3 & K4); [|intros x Hx; apply NN; right; exact Hx|exact PD|exact BD|lia|].
    + unfold kinv. cbn [fst snd]. split; [exact FD|]. split; [reflexivity|]. change (f2R fzero) with 0. rewrite Rabs_R0. split; [lra|]. replace (f2R d - 0 - f2R d) with 0 by ring. rewrite Rabs_R0. change (INR 0) with 0. nra.
    + split; [exact K1|]. cbn [Nat.add] in K4. pose proof (pos_INR (length l)).
      assert (HK' : INR (length l) <= 8192) by (replace 8192 with (INR 8192) by (rewrite INR_IZR_INZ; reflexivity); apply le_INR; lia).
      assert (U2 : 0 <= u53 * u53 <= u53 / 1000000000) by nra.
      assert (INR (length l) * (64 * (u53 * u53)) <= 8192 * (64 * (u53 * u53))) by (apply Rmult_le_compat_r; lra).
      assert (3 * u53 * (f2R d + lsum f2R l) <= 3 * u53 * (3 / 2)) by (apply Rmult_le_compat_l; lra).
      apply Rabs_le_inv in K3. apply Rabs_le_inv in K4. apply Rabs_le. lra.
Qed.

(** ** numpy accepts the probabilities *)
Lemma removelast_app1 : forall A (l : list A) d, l <> [] -> removelast l ++ [last l d] = l.
Proof. intros. symmetry. apply app_removelast_last. assumption. Qed.
Lemma accepts : forall sum_up l, added l (sum_up l) -> (forall x, In x l -> nonneg64 x) -> (length l <= 8192)%nat -> lsum f2R l <= b2 500 -> 0 < lsum f2R l ->
  forall n, (0 <= n)%Z -> numpy_accepts n (map (fun x => fdiv x (sum_up l)) l) = true.
Proof.
  intros sum_up l AD NN HL BD PS n Hn. pose proof u53_pos as U. set (S := lsum f2R l) in *. set (tot := sum_up l) in *.
  assert (HK : 0 <= INR (length l) <= 8192) by (split; [apply pos_INR|replace 8192 with (INR 8192) by (rewrite INR_IZR_INZ; reflexivity); apply le_INR; exact HL]).
  set (K := INR (length l)) in *. assert (KU : 0 <= K * u53 <= 8192 * u53) by (split; [apply Rmult_le_pos; lra|apply Rmult_le_compat_r; lra]).
  assert (UU : 8192 * u53 <= / 1000000000000) by (unfold u53; lra).
  destruct (added_bounds l tot AD NN ltac:(fold K; lra) BD) as [FT BT]. fold S K in BT. pose proof (added_ge l tot AD NN ltac:(fold K; lra) BD) as GE.
  assert (TP : 0 < f2R tot) by (eapply Rlt_le_trans; [|apply BT]; apply Rmult_lt_0_compat; lra).
  assert (PB : forall x, In x l -> nonneg64 (fdiv x tot) /\ f2R (fdiv x tot) <= 1 /\ f2R (fdiv x tot) <= f2R x * (/ f2R tot * (1 + u53)) + eta0).
  { intros x Hx. destruct (NN x Hx) as [Fx Px]. pose proof (GE x Hx) as G.
    assert (Q : 0 <= f2R x / f2R tot <= 1). { split; [apply Rmult_le_pos; [exact Px|left; apply Rinv_0_lt_compat; exact TP]|]. apply Rmult_le_reg_r with (f2R tot); [exact TP|]. unfold Rdiv. rewrite Rmult_assoc, Rinv_l by lra. lra. }
    destruct (fdiv_spec x tot 0 Fx ltac:(lra) ltac:(lia)) as [V F]; [change (b2 0) with 1; rewrite Rabs_pos_eq; lra|].
    split; [split; [exact F|rewrite V; apply rnd_lb; [apply (fmt_IZR 0); lia|lra]]|]. split; [rewrite V; apply rnd_ub; [apply (fmt_IZR 1); lia|lra]|].
    pose proof (rnd_err (f2R x / f2R tot)) as E. rewrite <- V, (Rabs_pos_eq (f2R x / f2R tot)) in E by lra. apply Rabs_le_inv in E. unfold Rdiv in *. lra. }
  unfold numpy_accepts. destruct (Z.leb_spec 0 n) as [_|B]; [|lia]. cbn [andb]. set (p := map (fun x => fdiv x tot) l).
  assert (NP : forall y, In y p -> nonneg64 y /\ f2R y <= 1) by (intros y Hy; apply in_map_iff in Hy; destruct Hy as (x & <- & Hx); destruct (PB x Hx) as (A & B & _); split; assumption).
  assert (FA : forallb (fun p => fle fzero p && fle p fone) p = true). { apply forallb_forall. intros y Hy. destruct (NP y Hy) as [[F P] Q]. destruct fone_val as [OV OF]. apply andb_true_iff. split; apply fle_spec; try assumption; try reflexivity. rewrite OV. exact Q. }
  rewrite FA. cbn [andb]. apply negb_true_iff. set (q := match p with [p0] => [p0] | _ => removelast p end).
  assert (SP : lsum f2R p <= (1 + u53) * (S / f2R tot) + K * eta0).
  { unfold p. rewrite lsum_map. apply Rle_trans with (lsum (fun x => f2R x * (/ f2R tot * (1 + u53)) + eta0) l); [apply lsum_le; intros x Hx; apply (PB x Hx)|]. rewrite lsum_plus, lsum_scal_r, lsum_const. fold S K. unfold Rdiv. lra. }
  assert (ST : S / f2R tot <= 1 + 8193 * u53).
  { apply Rmult_le_reg_r with (f2R tot); [exact TP|]. unfold Rdiv. rewrite Rmult_assoc, Rinv_l, Rmult_1_r by lra.
    apply Rle_trans with ((1 + 8193 * u53) * (S * (1 - K * u53))); [|apply Rmult_le_compat_l; lra].
    replace ((1 + 8193 * u53) * (S * (1 - K * u53))) with (S * ((1 + 8193 * u53) * (1 - K * u53))) by ring. rewrite <- (Rmult_1_r S) at 1. apply Rmult_le_compat_l; [lra|].
    apply Rle_trans with ((1 + 8193 * u53) * (1 - 8192 * u53)); [|apply Rmult_le_compat_l; lra]. assert (8193 * 8192 * (u53 * u53) <= u53) by (unfold u53; lra). lra. }
  assert (EB : K * eta0 <= u53). { apply Rle_trans with (8192 * eta0); [apply Rmult_le_compat_r; [left; apply eta0_pos|lra]|]. rewrite <- u53_b2. unfold eta0. change 8192 with (b2 13). rewrite <- bpow_plus. apply bpow_le. lia. }
  assert (SP' : lsum f2R p <= 1 + 8196 * u53). { apply Rle_trans with ((1 + u53) * (1 + 8193 * u53) + u53); [|assert (8193 * (u53 * u53) <= u53) by (unfold u53; lra); lra]. eapply Rle_trans; [exact SP|]. apply Rplus_le_compat; [apply Rmult_le_compat_l; lra|exact EB]. }
  assert (SQ : (forall x, In x q -> In x p) /\ (length q <= length p)%nat /\ lsum f2R q <= lsum f2R p).
  { unfold q. destruct p as [|y [|z p0]] eqn:EP; [split; [intros x []|split; [reflexivity|right; reflexivity]]|split; [auto|split; [auto|lra]]|]. rewrite <- EP in *.
    assert (NE : p <> []) by (rewrite EP; discriminate). pose proof (removelast_app1 _ p fzero NE) as RA. split; [|split].
    - intros x Hx. rewrite <- RA. apply in_or_app. left. exact Hx.
    - rewrite <- RA at 2. rewrite app_length. lia.
    - rewrite <- RA at 2. rewrite lsum_app, lsum_cons, lsum_nil. assert (0 <= f2R (last p fzero)); [|lra]. apply NP. rewrite <- RA at 2. apply in_or_app. right. left. reflexivity. }
  destruct SQ as (Q1 & Q2 & Q3). destruct (kahan_ok q) as [FK BK]; [intros x Hx; apply NP, Q1, Hx|lra|unfold p in Q2; rewrite map_length in Q2; lia|].
  destruct (flit_spec (2 ^ 52 + 4504) (-52)) as [LV LF]; try lia. fold one_1em12 in LV, LF.
  destruct (flt one_1em12 (kahan_sum q)) eqn:E; [|reflexivity]. exfalso. apply (proj1 (flt_spec _ _ LF FK)) in E. rewrite LV in E. change (b2 (-52)) with (/ 4503599627370496) in E. change (IZR (2 ^ 52 + 4504)) with 4503599627375000 in E.
  apply Rabs_le_inv in BK. unfold u53 in *. lra.
Qed.

(** ** sums and probabilities of numbers close to given ones *)
Definition near3 (x : f64) (g : R) : Prop := nonneg64 x /\ Rabs (f2R x - g) <= 3 * u53 * g /\ (g = 0 \/ / 140737488355328 <= g).
Section Near.
  Variable A : Type.
  Variables (cs : list A) (f : A -> f64) (g : A -> R) (sum_up : list f64 -> f64) (M : R).
  Hypothesis SU : forall l, added l (sum_up l).
  Hypothesis NG : forall c, In c cs -> near3 (f c) (g c).
  Hypothesis SG : lsum g cs = M.
  Hypothesis HM : 1 <= M <= 70368744177664.
  Let K := INR (length cs).
  Hypothesis HK : K <= 1048576.
  Let tot := sum_up (map f cs).
  Let S := lsum f2R (map f cs).
  Lemma near_nn : forall x, In x (map f cs) -> nonneg64 x.
  Proof. intros x Hx. apply in_map_iff in Hx. destruct Hx as (c & <- & Hc). apply (NG c Hc). Qed.
  Lemma near_S : Rabs (S - M) <= 3 * u53 * M.
  Proof. unfold S. rewrite lsum_map, <- SG, <- lsum_scal. apply abs_close. intros c Hc. apply (NG c Hc). Qed.
  Lemma near_big : 0 < S /\ S <= b2 500.
  Proof. pose proof near_S as E. pose proof u53_pos as U. apply Rabs_le_inv in E. assert (3 * u53 * M <= / 100 * M) by (apply Rmult_le_compat_r; lra). split; [lra|]. apply Rle_trans with (b2 50); [change (b2 50) with 1125899906842624; lra|apply bpow_le; lia]. Qed.
  Lemma near_total : ffin tot = true /\ M * (1 - (K + 3) * u53) <= f2R tot <= M * (1 + (2 * K + 4) * u53).
  Proof.
    pose proof near_S as E. destruct near_big as [SP SB]. pose proof u53_pos as U. assert (KP : 0 <= K) by apply pos_INR. assert (KU : 0 <= K * u53 <= / 8589934592) by (unfold u53 in *; split; [nra|lra]).
    assert (LK : INR (length (map f cs)) = K) by (rewrite map_length; reflexivity).
    destruct (added_bounds (map f cs) tot (SU _) near_nn ltac:(rewrite LK; lra) SB) as [F B]. split; [exact F|]. rewrite LK in B. fold S in B. apply Rabs_le_inv in E. destruct B as [B1 B2]. split.
    - eapply Rle_trans; [|exact B1]. apply Rle_trans with (M * (1 - 3 * u53) * (1 - K * u53)); [|apply Rmult_le_compat_r; lra]. rewrite Rmult_assoc. apply Rmult_le_compat_l; [lra|]. nra.
    - eapply Rle_trans; [exact B2|]. apply Rle_trans with (M * (1 + 3 * u53) * (1 + 2 * K * u53)); [apply Rmult_le_compat_r; lra|]. rewrite Rmult_assoc. apply Rmult_le_compat_l; [lra|].
      assert (6 * (u53 * (K * u53)) <= u53); [|lra]. apply Rle_trans with (6 * (u53 * / 8589934592)); [apply Rmult_le_compat_l; [lra|apply Rmult_le_compat_l; lra]|lra].
  Qed.
  Variable Mz : Z.
  Hypothesis EMz : M = IZR Mz.
  Lemma near_trunc : (2 * K + 5) * M <= 9007199254740992 -> f_trunc tot = Mz \/ f_trunc tot = (Mz - 1)%Z.
  Proof.
    intros SM. destruct near_total as [F [B1 B2]]. pose proof u53_pos as U. assert (KP : 0 <= K) by apply pos_INR. assert (MU : (2 * K + 5) * M * u53 <= 1) by (unfold u53; lra). assert (0 < M * u53) by nra. assert (0 <= K * (M * u53)) by nra.
    assert (T1 : M - 1 < f2R tot < M + 1) by (split; nra). rewrite Btrunc_spec by exact F. rewrite Ztrunc_floor by lra.
    destruct (Rle_lt_dec M (f2R tot)) as [G|G]; [left|right]; apply Zfloor_imp; rewrite ?minus_IZR, ?plus_IZR, ?minus_IZR, <- EMz; lra.
  Qed.
  Lemma near_trunc_iff : (2 * K + 5) * M <= 9007199254740992 -> (f_trunc tot = Mz <-> M <= f2R tot).
  Proof.
    intros SM. destruct near_total as [F [B1 B2]]. pose proof u53_pos as U. assert (KP : 0 <= K) by apply pos_INR. assert (MU : (2 * K + 5) * M * u53 <= 1) by (unfold u53; lra). assert (0 < M * u53) by nra. assert (0 <= K * (M * u53)) by nra.
    assert (T1 : M - 1 < f2R tot < M + 1) by (split; nra). rewrite Btrunc_spec by exact F. rewrite Ztrunc_floor by lra. split; intros G.
    - rewrite EMz, <- G. apply Zfloor_lb.
    - apply Zfloor_imp. rewrite plus_IZR, <- EMz. lra.
  Qed.
  Lemma near_rint : 2 * ((2 * K + 5) * M) <= 9007199254740992 -> f_rint tot = Mz.
  Proof.
    intros SM. destruct near_total as [F [B1 B2]]. pose proof u53_pos as U. assert (KP : 0 <= K) by apply pos_INR. assert (MU : (2 * K + 5) * M * u53 <= 1 / 2) by (unfold u53; lra). assert (0 < M * u53) by nra. assert (0 <= K * (M * u53)) by nra.
    unfold f_rint. apply Znearest_imp. rewrite <- EMz. apply Rabs_lt. split; nra.
  Qed.
  (** each probability *)
  Lemma near_prob : K <= 8192 -> forall c, In c cs -> Rabs (f2R (fdiv (f c) tot) - g c / M) <= (2 * K + 10) * u53 * (g c / M).
  Proof.
    intros HK8 c Hc. destruct near_total as [F [B1 B2]]. destruct (NG c Hc) as ([Fx Px] & E & G). pose proof u53_pos as U. assert (KP : 0 <= K) by apply pos_INR. apply Rabs_le_inv in E.
    set (a := (2 * K + 4) * u53). assert (AB : 4 * u53 <= a <= 16388 * u53) by (unfold a; split; apply Rmult_le_compat_r; lra). assert (AU : 16388 * u53 <= / 100000000000) by (unfold u53; lra).
    assert (T1 : M * (1 - a) <= f2R tot <= M * (1 + a)). { split; [|unfold a; exact B2]. eapply Rle_trans; [|exact B1]. apply Rmult_le_compat_l; [lra|]. assert ((K + 3) * u53 <= a) by (unfold a; apply Rmult_le_compat_r; lra). lra. }
    assert (MT : M / 2 <= M * (1 - a)) by nra. assert (TP : 0 < f2R tot) by lra.
    set (x := f2R (f c)) in *. set (gm := g c / M). assert (GE : g c = gm * M) by (unfold gm; field; lra). assert (G0 : 0 <= g c) by (destruct G as [-> |G]; lra).
    assert (GP : 0 <= gm) by (apply Rmult_le_pos; [exact G0|left; apply Rinv_0_lt_compat; lra]).
    assert (Q : Rabs (x / f2R tot - gm) <= (a + 7 / 2 * u53) * gm).
    { replace (x / f2R tot - gm) with ((x - gm * f2R tot) / f2R tot) by (field; lra). unfold Rdiv. rewrite Rabs_mult, (Rabs_pos_eq (/ f2R tot)) by (left; apply Rinv_0_lt_compat; exact TP). apply Rmult_le_reg_r with (f2R tot); [exact TP|]. rewrite Rmult_assoc, Rinv_l, Rmult_1_r by lra.
      assert (GMT : gm * (M * (1 - a)) <= gm * f2R tot <= gm * (M * (1 + a))) by (split; apply Rmult_le_compat_l; lra). rewrite GE in E.
      apply Rle_trans with ((a + 3 * u53) * (gm * M)); [apply Rabs_le; split; lra|].
      apply Rle_trans with ((a + 7 / 2 * u53) * (gm * (M * (1 - a)))); [|rewrite Rmult_assoc; apply Rmult_le_compat_l; lra].
      replace ((a + 7 / 2 * u53) * (gm * (M * (1 - a)))) with (((a + 7 / 2 * u53) * (1 - a)) * (gm * M)) by ring. apply Rmult_le_compat_r; [rewrite <- GE; exact G0|].
      assert ((a + 7 / 2 * u53) * a <= u53 / 2); [|lra]. apply Rle_trans with ((16388 * u53 + 7 / 2 * u53) * (16388 * u53)); [apply Rmult_le_compat; lra|]. unfold u53. lra. }
    apply Rabs_le_inv in Q. assert (SM : (a + 7 / 2 * u53) * gm <= / 1000 * gm) by (apply Rmult_le_compat_r; lra).
    assert (QB : 0 <= x / f2R tot) by lra.
    assert (QU : x / f2R tot <= b2 50). { assert (g c <= M) by (rewrite <- SG; apply (lsum_le_elem _ g cs c); [intros y Hy; destruct (NG y Hy) as (_ & _ & [-> |Z]); lra|exact Hc]). assert (gm <= 1) by (apply Rmult_le_reg_r with M; lra). apply Rle_trans with 2; [lra|]. change 2 with (b2 1). apply bpow_le. lia. }
    destruct (fdiv_spec (f c) tot 50 Fx ltac:(lra) ltac:(lia)) as [V _]; [fold x; rewrite Rabs_pos_eq by exact QB; exact QU|]. fold x in V.
    pose proof (rnd_err (x / f2R tot)) as R0. rewrite <- V, (Rabs_pos_eq (x / f2R tot)) in R0 by exact QB.
    assert (ET : eta0 <= u53 * gm \/ gm = 0).
    { destruct G as [G|G]; [right; unfold gm; rewrite G; unfold Rdiv; ring|left]. apply Rle_trans with (u53 * b2 (-94)); [rewrite <- u53_b2, <- bpow_plus; apply bpow_le; lia|]. apply Rmult_le_compat_l; [lra|]. apply Rmult_le_reg_r with M; [lra|]. rewrite <- GE. apply Rle_trans with (/ 140737488355328); [|exact G].
      apply Rle_trans with (b2 (-94) * b2 46); [apply Rmult_le_compat_l; [apply bpow_ge_0|change (b2 46) with 70368744177664; lra]|]. rewrite <- bpow_plus. change (b2 (-94 + 46)) with (/ 281474976710656). lra. }
    destruct ET as [ET|ET].
    - apply Rabs_le_inv in R0. assert (u53 * (x / f2R tot) <= u53 * (3 / 2 * gm)) by (apply Rmult_le_compat_l; lra). replace ((2 * K + 10) * u53 * gm) with (a * gm + 6 * (u53 * gm)) by (unfold a; ring). assert (0 <= u53 * gm) by (apply Rmult_le_pos; lra). apply Rabs_le. lra.
    - assert (X0 : x / f2R tot = 0) by lra. rewrite V, X0, rnd_0, ET. replace (0 - 0) with 0 by ring. rewrite Rabs_R0. lra.
  Qed.
End Near.

(** ** expected frequencies of a table of counts *)
Section Exp.
  Variable add_up : site -> list f64 -> f64.
  Hypothesis AO : any_order add_up.
  Variable m : fmat.
  Hypothesis CT : count_table64 m.
  Let T := real_table m.
  Let N := matsum T.
  Hypothesis HN : 1 <= N <= 70368744177664.
  Lemma exp_near : forall i j, (i < fr m)%nat -> (j < fc m)%nat -> near3 (fe (fexpected add_up m) i j) (expected T i j).
  Proof.
    intros i j Hi Hj. cbn [fexpected fe]. unfold Chi2FModel.fexp. destruct (frow_val add_up AO m CT ltac:(exact HN) i Hi) as [WR VR]. destruct (fcol_val add_up AO m CT ltac:(exact HN) j Hj) as [WC VC]. destruct (ftot_val add_up AO m CT ltac:(exact HN)) as [WT VT].
    pose proof (row_le m CT i Hi) as RL. pose proof (col_le m CT j Hj) as CL. fold T N in VR, VC, VT, RL, CL. unfold expected. fold N. rewrite <- VR, <- VC, <- VT in *.
    pose proof (proj2 (whole_nonneg _ WR)) as PR. pose proof (proj2 (whole_nonneg _ WC)) as PC. set (fR := frow add_up m i) in *. set (fC := fcol add_up m j) in *. set (fT := ftot add_up m) in *.
    assert (NZ : f2R fT <> 0) by lra.
    destruct (Req_dec (f2R fR * f2R fC) 0) as [Z|NZ2].
    - assert (B0 : Rabs 0 <= b2 1) by (rewrite Rabs_R0; apply bpow_ge_0).
      destruct (fmult_spec fR fC 1 (proj1 WR) (proj1 WC) ltac:(lia)) as [V1 F1]; [rewrite Z; exact B0|]. rewrite Z, rnd_0 in V1.
      assert (Z2 : f2R (fmult fR fC) / f2R fT = 0) by (rewrite V1; unfold Rdiv; ring).
      destruct (fdiv_spec (fmult fR fC) fT 1 F1 NZ ltac:(lia)) as [V2 F2]; [rewrite Z2; exact B0|]. rewrite Z2, rnd_0 in V2.
      unfold near3, nonneg64. rewrite V2, Z. unfold Rdiv. rewrite Rmult_0_l. replace (0 - 0) with 0 by ring. rewrite Rabs_R0. repeat split; try assumption; try lra.
    - assert (R1 : 1 <= f2R fR) by (apply whole_pos; [exact WR|]; destruct PR as [PR|PR]; [exact PR|]; exfalso; apply NZ2; rewrite <- PR; ring).
      assert (C1 : 1 <= f2R fC) by (apply whole_pos; [exact WC|]; destruct PC as [PC|PC]; [exact PC|]; exfalso; apply NZ2; rewrite <- PC; ring).
      destruct (eh_ok fR fC fT WR WC WT ltac:(lra) ltac:(lra) ltac:(lra)) as [F E]. pose proof (e_range fR fC fT ltac:(lra) ltac:(lra) ltac:(lra)) as ER. pose proof u53_pos as U.
      split; [split; [exact F|apply Rabs_le_inv in E; nra]|]. split; [exact E|right; lra].
  Qed.
  Lemma exp_row_sum : forall i, lsum (fun j => expected T i j) (idx (fc m)) = rowsum T i.
  Proof.
    intros i. unfold expected. fold N. transitivity (rowsum T i * / N * lsum (fun j => colsum T j) (idx (fc m))).
    - rewrite <- lsum_scal. apply lsum_ext. intros j _. unfold Rdiv. ring.
    - replace (lsum (fun j => colsum T j) (idx (fc m))) with N by (unfold N; rewrite matsum_colsum; reflexivity). field. lra.
  Qed.
  Lemma exp_col_sum : forall j, lsum (fun i => expected T i j) (idx (fr m)) = colsum T j.
  Proof.
    intros j. unfold expected. fold N. transitivity (colsum T j * / N * lsum (fun i => rowsum T i) (idx (fr m))).
    - rewrite <- lsum_scal. apply lsum_ext. intros i _. unfold Rdiv. ring.
    - change (lsum (fun i => rowsum T i) (idx (fr m))) with N. field. lra.
  Qed.
  Lemma exp_sum : lsum (fun c => expected T (fst c) (snd c)) (fcells m) = N.
  Proof. unfold fcells. rewrite (lsum_cells (fun i j => expected T i j)). unfold N, matsum. apply lsum_ext. intros i _. apply exp_row_sum. Qed.
End Exp.
