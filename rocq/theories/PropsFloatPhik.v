(** C86: phik in floating-point arithmetic. *)
From Coq Require Import ZArith Reals Lia Lra Bool Psatz.
From Flocq Require Import Core BinarySingleNaN.
From Verif Require Import F64 Base LinspaceProofs BrentFModel BrentFProofs.
Open Scope R_scope.

Definition unit_interval (x : f64) : Prop := ffin x = true /\ 0 <= f2R x <= 1.
Definition negative (x : f64) : Prop := flt x fzero = true.
Definition positive (x : f64) : Prop := flt fzero x = true.
(** [f] computed in binary64 vanishes at x or changes sign between x and a point at most 1e-5 (and a rounding error) away *)
Definition is_root (f : f64 -> f64) (x : f64) : Prop := feqb (f x) fzero = true \/
  exists y, unit_interval y /\ ((negative (f x) /\ positive (f y)) \/ (positive (f x) /\ negative (f y))) /\ Rabs (f2R y - f2R x) <= 1 / 100000 + 1 / 10000000000000.

(** brentq in binary64 never leaves [0,1], whatever function it is given *)
Theorem C86_brentq : forall f iter, (forall x, unit_interval x -> fisnan (f x) = false) ->
  match brentq64 f fzero fone xtol64 rtol64 iter with
  | Ok x => unit_interval x /\ is_root f x
  | Raise RuntimeError => True
  | Raise ValueError => (negative (f fzero) /\ negative (f fone)) \/ (positive (f fzero) /\ positive (f fone))
  | Raise _ => False
  end.
Proof. intros f iter H. exact (brentq64_good f H iter). Qed.

Section Objective.
  Variables (chi2_rho : f64 -> f64) (M p c chi2 : f64).
  Hypothesis FM : ffin M = true. Hypothesis HM : 1 <= f2R M <= b2 200.
  Hypothesis FP : ffin p = true. Hypothesis HP : 0 <= f2R p.
  Hypothesis FC : ffin c = true. Hypothesis HC : b2 (-200) <= f2R c <= b2 200.
  Hypothesis FX : ffin chi2 = true. Hypothesis HX : f2R p < f2R chi2 < f2R M.
  Hypothesis R0 : chi2_rho fzero = fzero. Hypothesis R1 : chi2_rho fone = c.
  Hypothesis RF : forall x, unit_interval x -> ffin (chi2_rho x) = true /\ 0 <= f2R (chi2_rho x) <= b2 200.
  Let g := objective64 chi2_rho M p c chi2.

  Lemma cpos : 0 < f2R c. Proof. pose proof (bpow_gt_0 radix2 (-200)). lra. Qed.
  Lemma diff : ffin (fminus M p) = true /\ f2R (fminus M p) = rnd (f2R M - f2R p) /\ 0 <= f2R (fminus M p) <= b2 200.
  Proof.
    assert (B : 0 <= f2R M - f2R p <= b2 200) by lra. destruct (fminus_spec M p 200 FM FP ltac:(lia)) as [V F]; [rewrite Rabs_pos_eq; lra|]. split; [exact F|]. split; [exact V|]. rewrite V.
    split; [apply rnd_lb; [apply (fmt_IZR 0); lia|lra]|apply rnd_ub; [apply fmt_bpow; lia|lra]].
  Qed.
  Lemma scale_ok : ffin (scale64 M p c) = true /\ f2R (scale64 M p c) = rnd (f2R (fminus M p) / f2R c) /\ 0 <= f2R (scale64 M p c) <= b2 400.
  Proof.
    destruct diff as (F & V & B). pose proof cpos as CP. assert (Q : 0 <= f2R (fminus M p) / f2R c <= b2 400).
    { split; [apply Rmult_le_pos; [lra|left; apply Rinv_0_lt_compat; exact CP]|]. apply Rmult_le_reg_r with (f2R c); [exact CP|]. unfold Rdiv. rewrite Rmult_assoc, Rinv_l, Rmult_1_r by lra.
      apply Rle_trans with (b2 200); [lra|]. change 400%Z with (200 + 200)%Z. apply Rle_trans with (b2 400 * b2 (-200)); [rewrite <- bpow_plus; apply bpow_le; lia|apply Rmult_le_compat_l; [apply bpow_ge_0|lra]]. }
    unfold scale64. destruct (fdiv_spec (fminus M p) c 400 F ltac:(lra) ltac:(lia)) as [DV DF]; [rewrite Rabs_pos_eq; lra|]. split; [exact DF|]. split; [exact DV|]. rewrite DV.
    split; [apply rnd_lb; [apply (fmt_IZR 0); lia|lra]|apply rnd_ub; [apply fmt_bpow; lia|lra]].
  Qed.
  Lemma inner_ok : forall r, ffin r = true -> 0 <= f2R r <= b2 200 -> let t := fmult r (scale64 M p c) in let w := fplus p t in
    ffin t = true /\ f2R t = rnd (f2R r * f2R (scale64 M p c)) /\ ffin w = true /\ f2R w = rnd (f2R p + f2R t) /\ 0 <= f2R w <= b2 602.
  Proof.
    intros r F B t w. destruct scale_ok as (SF & _ & SB). assert (TB : 0 <= f2R r * f2R (scale64 M p c) <= b2 600).
    { split; [apply Rmult_le_pos; lra|]. change 600%Z with (200 + 400)%Z. rewrite bpow_plus. apply Rmult_le_compat; lra. }
    destruct (fmult_spec r (scale64 M p c) 600 F SF ltac:(lia)) as [TV TF]; [rewrite Rabs_pos_eq; lra|]. fold t in TV, TF.
    assert (T0 : 0 <= f2R t <= b2 600) by (rewrite TV; split; [apply rnd_lb; [apply (fmt_IZR 0); lia|lra]|apply rnd_ub; [apply fmt_bpow; lia|lra]]).
    assert (W0 : 0 <= f2R p + f2R t <= b2 602). { assert (b2 200 <= b2 601) by (apply bpow_le; lia). assert (b2 600 <= b2 601) by (apply bpow_le; lia). change 602%Z with (601 + 1)%Z. rewrite bpow_plus. change (b2 1) with 2. lra. }
    destruct (fplus_spec p t 602 FP TF ltac:(lia)) as [WV WF]; [rewrite Rabs_pos_eq; lra|]. fold w in WV, WF. split; [exact TF|]. split; [exact TV|]. split; [exact WF|]. split; [exact WV|]. rewrite WV.
    split; [apply rnd_lb; [apply (fmt_IZR 0); lia|lra]|apply rnd_ub; [apply fmt_bpow; lia|lra]].
  Qed.
  Lemma g_val : forall x, unit_interval x -> let w := fplus p (fmult (chi2_rho x) (scale64 M p c)) in g x = fminus w chi2 /\ ffin w = true /\ ffin (g x) = true /\ f2R (g x) = rnd (f2R w - f2R chi2).
  Proof.
    intros x U w. destruct (RF x U) as [F B]. destruct (inner_ok _ F B) as (_ & _ & WF & _ & WB). fold w in WF, WB. split; [reflexivity|]. split; [exact WF|].
    assert (b2 200 <= b2 602) by (apply bpow_le; lia). destruct (fminus_spec w chi2 602 WF FX ltac:(lia)) as [V FV]; [apply Rabs_le; lra|]. split; [exact FV|exact V].
  Qed.
  Lemma g_nan : forall x, unit_interval x -> fisnan (g x) = false.
  Proof. intros x U. destruct (g_val x U) as (_ & _ & F & _). destruct (g x); try reflexivity; discriminate. Qed.
  Lemma g_left : ~ positive (g fzero).
  Proof.
    intros P. assert (U : unit_interval fzero) by exact in01_0. destruct (g_val _ U) as (E & _ & F & V). rewrite R0 in *. destruct (inner_ok fzero eq_refl) as (_ & TV & _ & WV & _); [change (f2R fzero) with 0; split; [lra|apply bpow_ge_0]|].
    change (f2R fzero) with 0 in TV. rewrite Rmult_0_l, rnd_0 in TV. rewrite TV, Rplus_0_r, (rnd_id _ (fmt_B2R p)) in WV. rewrite WV in V. assert (f2R (g fzero) <= 0) by (rewrite V; apply rnd_ub; [apply (fmt_IZR 0); lia|lra]).
    apply flt_spec in P; [|reflexivity|exact F]. cbn in P. lra.
  Qed.
  Lemma g_right : f2R chi2 <= f2R M * (1 - / 1125899906842624) -> ~ negative (g fone).
  Proof.
    intros L N. assert (U : unit_interval fone) by exact in01_1. destruct (g_val _ U) as (E & _ & F & V). rewrite R1 in *. destruct (RF _ U) as [_ CB]. rewrite R1 in CB. destruct (inner_ok c FC CB) as (_ & TV & _ & WV & _).
    destruct scale_ok as (_ & SV & _). destruct diff as (_ & DV & _). pose proof cpos as CP. set (a := f2R M - f2R p) in *.
    assert (A : / 1125899906842624 <= a) by (unfold a; nra).
    destruct (rel_err a) as (e1 & E1 & Q1). { rewrite Rabs_pos_eq by lra. apply Rle_trans with (b2 (-50)); [apply bpow_le; lia|]. rewrite b2_m50. lra. }
    apply Rabs_le_inv in E1. rewrite b2_m53 in E1. rewrite DV, Q1 in SV.
    assert (AC : b2 (-251) * f2R c <= a * (1 + e1)). { apply Rle_trans with (b2 (-251) * b2 200); [apply Rmult_le_compat_l; [apply bpow_ge_0|lra]|]. rewrite <- bpow_plus. change (-251 + 200)%Z with (-51)%Z. change (b2 (-51)) with (/ 2251799813685248). nra. }
    destruct (rel_err (a * (1 + e1) / f2R c)) as (e2 & E2 & Q2). { rewrite Rabs_pos_eq by (apply Rmult_le_pos; [nra|left; apply Rinv_0_lt_compat; exact CP]). apply Rle_trans with (b2 (-251)); [apply bpow_le; lia|]. apply Rmult_le_reg_r with (f2R c); [exact CP|]. unfold Rdiv. rewrite Rmult_assoc, Rinv_l, Rmult_1_r by lra. exact AC. }
    apply Rabs_le_inv in E2. rewrite b2_m53 in E2. rewrite SV, Q2 in TV. replace (f2R c * (a * (1 + e1) / f2R c * (1 + e2))) with (a * ((1 + e1) * (1 + e2))) in TV by (field; lra).
    assert (K : 1 - / 4503599627370496 <= (1 + e1) * (1 + e2)) by nra.
    destruct (rel_err (a * ((1 + e1) * (1 + e2)))) as (e3 & E3 & Q3). { rewrite Rabs_pos_eq by nra. apply Rle_trans with (b2 (-51)); [apply bpow_le; lia|]. change (b2 (-51)) with (/ 2251799813685248). nra. }
    apply Rabs_le_inv in E3. rewrite b2_m53 in E3. rewrite Q3 in TV.
    assert (T : a * (1 - 3 * / 9007199254740992) <= f2R (fmult c (scale64 M p c))). { rewrite TV, Rmult_assoc. apply Rmult_le_compat_l; [lra|]. nra. }
    assert (PT : f2R M * (1 - 3 * / 9007199254740992) <= f2R p + f2R (fmult c (scale64 M p c))) by (unfold a in T; nra).
    destruct (rel_err (f2R p + f2R (fmult c (scale64 M p c)))) as (e4 & E4 & Q4). { rewrite Rabs_pos_eq by nra. apply Rle_trans with (b2 (-1)); [apply bpow_le; lia|]. change (b2 (-1)) with (/ 2). nra. }
    apply Rabs_le_inv in E4. rewrite b2_m53 in E4. rewrite Q4 in WV.
    assert (G : 0 <= f2R (g fone)). { rewrite V. apply rnd_lb; [apply (fmt_IZR 0); lia|]. rewrite WV. nra. }
    apply flt_spec in N; [|exact F|reflexivity]. change (f2R fzero) with 0 in N. lra.
  Qed.
End Objective.

(** phik_from_chi2 in binary64, from the chi2 of the table, its maximum M, the noise pedestal p and the computed chi2 of the bivariate
    normal distribution as a function of its correlation (0 at correlation 0, c at correlation 1): the result lies in [0,1], and
    solves the computed equation; a ValueError can only come from a chi2 within a relative 2^-50 below the maximum *)
Theorem C86_phik_in_unit_interval : forall chi2_rho M p c chi2,
  ffin M = true -> 1 <= f2R M <= b2 200 -> ffin p = true -> 0 <= f2R p -> ffin c = true -> b2 (-200) <= f2R c -> ffin chi2 = true ->
  chi2_rho fzero = fzero -> chi2_rho fone = c -> (forall x, unit_interval x -> ffin (chi2_rho x) = true /\ 0 <= f2R (chi2_rho x) <= b2 200) ->
  match phik_from_chi2_64 (objective64 chi2_rho M p c) chi2 M p with
  | Ok r => unit_interval r /\ ((f2R chi2 <= f2R p \/ f2R M <= f2R p) /\ r = fzero \/ f2R M <= f2R chi2 /\ r = fone \/ f2R p < f2R chi2 < f2R M /\ is_root (objective64 chi2_rho M p c chi2) r)
  | Raise RuntimeError => True
  | Raise ValueError => f2R M * (1 - / 1125899906842624) < f2R chi2 < f2R M
  | Raise _ => False
  end.
Proof.
  intros chi2_rho M p c chi2 FM HM FP HP FC HC FX R0 R1 RF. destruct (RF fone in01_1) as [_ C2]. rewrite R1 in C2. unfold phik_from_chi2_64.
  destruct (flt M chi2 && isclose64 chi2 M) eqn:E.
  - apply andb_true_iff in E. destruct E as [E _]. apply flt_spec in E; try assumption. destruct (fle M p) eqn:L.
    + apply fle_spec in L; try assumption. split; [exact in01_0|]. left. split; [right; exact L|reflexivity].
    + assert (Q : fle M M = true) by (apply fle_spec; try assumption; lra). rewrite Q. split; [exact in01_1|]. right. left. split; [lra|reflexivity].
  - clear E. destruct (fle chi2 p) eqn:L; [apply fle_spec in L; try assumption; split; [exact in01_0|]; left; auto|].
    destruct (fle M chi2) eqn:G; [apply fle_spec in G; try assumption; split; [exact in01_1|]; right; left; auto|].
    assert (HX : f2R p < f2R chi2 < f2R M). { split; apply Rnot_le_lt; intros X; apply fle_spec in X; try assumption; congruence. }
    assert (HC' : b2 (-200) <= f2R c <= b2 200) by lra.
    pose proof (C86_brentq (objective64 chi2_rho M p c chi2) 100 ltac:(intros; eapply g_nan; eassumption)) as B.
    destruct (brentq64 _ _ _ _ _ _) as [r|[]]; try assumption.
    + destruct B as [B1 B2]. split; [exact B1|]. right. right. auto.
    + split; [|lra]. apply Rnot_le_lt. intros LE. assert (G0 : ~ positive (objective64 chi2_rho M p c chi2 fzero)) by (eapply g_left; eassumption). assert (G1 : ~ negative (objective64 chi2_rho M p c chi2 fone)) by (eapply g_right; eassumption). tauto.
Qed.

(** A chi2 above the maximum M is replaced by M if it is within numpy's isclose tolerance, the comparison being made in binary64 with the floats
    nearest to 1e-14 and 1e-5.  What the caller sees: 0 if chi2 is at most the pedestal, also 0 if chi2 is that close to a maximum that is
    at most the pedestal, and otherwise 1 *)
Theorem C86_above_maximum : forall f M p chi2, ffin M = true -> 1 <= f2R M <= b2 200 -> ffin p = true -> ffin chi2 = true -> f2R M < f2R chi2 <= b2 200 ->
  let close := rnd (f2R chi2 - f2R M) <= rnd (6338253001141147 * b2 (-99) + rnd (5902958103587057 * b2 (-69) * f2R M)) in
  let zero := f2R chi2 <= f2R p \/ f2R M <= f2R p /\ close in
  (zero -> phik_from_chi2_64 f chi2 M p = Ok fzero) /\ (~ zero -> phik_from_chi2_64 f chi2 M p = Ok fone).
Proof.
  intros f M p chi2 FM HM FP FX HX close zero. assert (G200 : b2 200 <= b2 202) by (apply bpow_le; lia). assert (L : flt M chi2 = true) by (apply flt_spec; try assumption; lra).
  destruct (flit_spec 5902958103587057 (-69)) as [V5 F5]; try lia. destruct (flit_spec 6338253001141147 (-99)) as [V14 F14]; try lia. fold xtol64 in V5, F5. fold atol64 in V14, F14.
  assert (T5 : 0 <= f2R xtol64 <= 1) by (rewrite V5; change (b2 (-69)) with (/ 590295810358705651712); lra). assert (T14 : 0 <= f2R atol64 <= 1) by (rewrite V14; change (b2 (-99)) with (/ 633825300114114700748351602688); lra).
  destruct (fminus_spec chi2 M 202 FX FM ltac:(lia)) as [VD FD]; [apply Rabs_le; lra|]. destruct (fabs_val (fminus chi2 M)) as [VA FA]. destruct (fabs_val M) as [VM FMa]. rewrite (Rabs_pos_eq (f2R M)) in VM by lra.
  assert (D0 : 0 <= rnd (f2R chi2 - f2R M)) by (apply rnd_lb; [apply (fmt_IZR 0); lia|lra]). rewrite VD, Rabs_pos_eq in VA by exact D0.
  assert (MB : 0 <= f2R xtol64 * f2R M <= b2 200) by (split; [apply Rmult_le_pos; lra|apply Rle_trans with (1 * f2R M); [apply Rmult_le_compat_r; lra|lra]]).
  destruct (fmult_spec xtol64 (fabs M) 200 F5 ltac:(rewrite FMa; exact FM) ltac:(lia)) as [VP FPr]; [rewrite VM; apply Rabs_le; lra|]. rewrite VM in VP.
  assert (PB : 0 <= rnd (f2R xtol64 * f2R M) <= b2 200) by (split; [apply rnd_lb; [apply (fmt_IZR 0); lia|lra]|apply rnd_ub; [apply fmt_bpow; lia|lra]]).
  assert (B1 : 1 + b2 200 <= b2 202). { replace (b2 202) with (4 * b2 200) by (change 202%Z with (2 + 200)%Z; rewrite bpow_plus; reflexivity). assert (1 <= b2 200) by (change 1 with (b2 0); apply bpow_le; lia). lra. }
  destruct (fplus_spec atol64 (fmult xtol64 (fabs M)) 202 F14 FPr ltac:(lia)) as [VS FS]; [rewrite VP; apply Rabs_le; lra|]. rewrite VP, V14, V5 in VS.
  assert (C : isclose64 chi2 M = true <-> close). { unfold isclose64, close. rewrite (fle_spec _ _) by (try exact FS; rewrite FA; exact FD). rewrite VA, VS. reflexivity. }
  assert (Q : fle M M = true) by (apply fle_spec; try assumption; lra). assert (Q' : fle M chi2 = true) by (apply fle_spec; try assumption; lra). unfold phik_from_chi2_64. rewrite L. cbn [andb].
  split.
  - intros [H|[H1 H2]].
    + destruct (isclose64 chi2 M); [rewrite (proj2 (fle_spec M p FM FP)) by lra|rewrite (proj2 (fle_spec chi2 p FX FP)) by lra]; reflexivity.
    + rewrite (proj2 C H2). rewrite (proj2 (fle_spec M p FM FP)) by lra. reflexivity.
  - intros N. destruct (isclose64 chi2 M) eqn:E.
    + destruct (fle M p) eqn:E2; [exfalso; apply N; right; split; [apply (fle_spec M p FM FP); exact E2|apply C; reflexivity]|]. rewrite Q. reflexivity.
    + destruct (fle chi2 p) eqn:E2; [exfalso; apply N; left; apply (fle_spec chi2 p FX FP); exact E2|]. rewrite Q'. reflexivity.
Qed.
Print Assumptions C86_above_maximum.
(** both sides of the tolerance, for a maximum of 4 and a pedestal of 4: chi2 = 4.00003 and 4.00005 *)
Example C86_above_maximum_run : forall f, phik_from_chi2_64 f (fdiv (ofZ 400003) (ofZ 100000)) (ofZ 4) (ofZ 4) = Ok fzero /\ phik_from_chi2_64 f (fdiv (ofZ 400005) (ofZ 100000)) (ofZ 4) (ofZ 4) = Ok fone.
Proof.
  intros f. unfold phik_from_chi2_64.
  assert (E1 : flt (ofZ 4) (fdiv (ofZ 400003) (ofZ 100000)) && isclose64 (fdiv (ofZ 400003) (ofZ 100000)) (ofZ 4) = true) by (vm_compute; reflexivity). assert (E2 : flt (ofZ 4) (fdiv (ofZ 400005) (ofZ 100000)) && isclose64 (fdiv (ofZ 400005) (ofZ 100000)) (ofZ 4) = false) by (vm_compute; reflexivity).
  assert (E3 : fle (ofZ 4) (ofZ 4) = true) by (vm_compute; reflexivity). assert (E4 : fle (fdiv (ofZ 400005) (ofZ 100000)) (ofZ 4) = false) by (vm_compute; reflexivity). assert (E5 : fle (ofZ 4) (fdiv (ofZ 400005) (ofZ 100000)) = true) by (vm_compute; reflexivity).
  rewrite E1, E2. cbv zeta. rewrite E3, E4, E5. split; reflexivity.
Qed.

(** and such a ValueError does occur: maximum 4 (say 4 records in a 2 by 2 table), pedestal 1.248, chi2(1) = 5.468, and a chi2 of
    3.9999999999999996, one rounding error below the maximum *)
Definition m86 : f64 := ofZ 4.
Definition p86 : f64 := flit 5620492334958379 (-52).
Definition c86 : f64 := flit 6156420690615468 (-50).
Definition x86 : f64 := flit 9007199254740991 (-51).
Theorem C86_value_error : forall chi2_rho, chi2_rho fzero = fzero -> chi2_rho fone = c86 ->
  phik_from_chi2_64 (objective64 chi2_rho m86 p86 c86) x86 m86 p86 = Raise ValueError.
Proof.
  intros h H0 H1. unfold phik_from_chi2_64.
  assert (A1 : flt m86 x86 = false) by (vm_compute; reflexivity). assert (A2 : fle x86 p86 = false) by (vm_compute; reflexivity). assert (A3 : fle m86 x86 = false) by (vm_compute; reflexivity).
  rewrite A1. cbn [andb]. cbv zeta. rewrite A2, A3. unfold brentq64, objective64. rewrite H0, H1.
  set (g0 := fminus (fplus p86 (fmult fzero _)) x86). set (g1 := fminus (fplus p86 (fmult c86 _)) x86).
  assert (B1 : nonzero g0 = true) by (vm_compute; reflexivity). assert (B2 : nonzero g1 = true) by (vm_compute; reflexivity). assert (B3 : Bool.eqb (signbit g0) (signbit g1) = true) by (vm_compute; reflexivity).
  rewrite B1, B2, B3. reflexivity.
Qed.
(** the hypotheses of C86_phik_in_unit_interval are met by these numbers; and brentq converges on an example: x^2 - 1/2 *)
Example C86_hypotheses : let h := (fun x => if flt x (flit 1 (-1)) then fzero else c86) in
  ffin m86 = true /\ 1 <= f2R m86 <= b2 200 /\ ffin p86 = true /\ 0 <= f2R p86 /\ ffin c86 = true /\ b2 (-200) <= f2R c86 /\ ffin x86 = true /\
  h fzero = fzero /\ h fone = c86 /\ (forall x, unit_interval x -> ffin (h x) = true /\ 0 <= f2R (h x) <= b2 200).
Proof.
  destruct (ofZ_spec 4 ltac:(lia)) as [M1 M2]. destruct (flit_spec 5620492334958379 (-52)) as [P1 P2]; try lia. destruct (flit_spec 6156420690615468 (-50)) as [C1 C2]; try lia. destruct (flit_spec 9007199254740991 (-51)) as [X1 X2]; try lia.
  fold m86 in M1, M2. fold p86 in P1, P2. fold c86 in C1, C2. fold x86 in X1, X2.
  assert (CB : 0 <= f2R c86 <= b2 200 /\ b2 (-200) <= f2R c86).
  { rewrite C1. change (b2 (-50)) with (/ 1125899906842624). assert (b2 3 <= b2 200) by (apply bpow_le; lia). change (b2 3) with 8 in H. assert (b2 (-200) <= b2 0) by (apply bpow_le; lia). change (b2 0) with 1 in H0. lra. }
  split; [exact M2|]. split; [rewrite M1; assert (b2 3 <= b2 200) by (apply bpow_le; lia); change (b2 3) with 8 in H; lra|]. split; [exact P2|]. split; [rewrite P1; pose proof (bpow_ge_0 radix2 (-52)); nra|].
  split; [exact C2|]. split; [tauto|]. split; [exact X2|]. split; [reflexivity|]. split; [reflexivity|]. intros x _. destruct (flt x _); [|tauto]. split; [reflexivity|]. change (f2R fzero) with 0. split; [lra|apply bpow_ge_0].
Qed.
Example C86_run : match brentq64 (fun x => fminus (fmult x x) (flit 1 (-1))) fzero fone xtol64 rtol64 100 with Ok r => flt (flit 7071 (-14)) r && fle r (fdiv (ofZ 70711) (ofZ 100000)) && fle (fdiv (ofZ 70710) (ofZ 100000)) r | Raise _ => false end = true.
Proof. vm_compute. reflexivity. Qed.
Print Assumptions C86_phik_in_unit_interval. Print Assumptions C86_value_error. Print Assumptions C86_brentq.
