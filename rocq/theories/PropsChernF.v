(** C104: the Chernoff fallback of the chi2 significance in floating-point arithmetic. *)
From Coq Require Import ZArith List Bool Reals Lia Lra Psatz.
Import ListNotations.
From Flocq Require Import Core BinarySingleNaN.
From Verif Require Import F64 Base StatsModel StatsProofs Num LinspaceProofs BrentFModel BrentFProofs GlobFModel PropsGlobF SpecChi2F Chi2FProofs SpecGStat GStatProofs SpecSig SigModel SigProofs PropsGStat PiBound ZTailModel SpecZTail ZTailProofs PropsZTail ChernFProofs.
Open Scope R_scope.

(** the formula of the real-number model (C43, C74) *)
Theorem C104_real_formula : forall chi2 ndof e, 0 < chi2 -> 0 < ndof ->
  chernoff chi2 ndof e = if rltb 0 (exact_exponent chi2 ndof e) then Ok (Fin (exact_z chi2 ndof e)) else Raise ValueError.
Proof. intros c k e C K. rewrite chernoff_ok by assumption. reflexivity. Qed.

(** chi2 >= ndof, chi2 up to 2^45, ndof not absurdly small (it may be the mean of simulated values) *)
Definition chern_range (c k : f64) : Prop := ffin c = true /\ ffin k = true /\ b2 (-100) <= f2R k <= f2R c /\ 1 <= f2R c <= b2 45.

Lemma exponent_le : forall c k f, chern_range c k -> fraction_ok f -> exact_exponent (f2R c) (f2R k) (extra_of f) <= f2R c + extra_of f.
Proof.
  intros c k f (_ & _ & K & C) Hf. unfold exact_exponent. set (cc := f2R c) in *. set (kk := f2R k) in *. assert (K0 : 0 < kk) by (assert (0 < b2 (-100)) by apply bpow_gt_0; lra). set (z := cc / kk) in *. assert (KZ : kk * z = cc) by (unfold z; field; lra).
  assert (Z2 : 1 <= z). { apply Rmult_le_reg_l with kk; [exact K0|]. rewrite KZ. lra. } assert (LZ0 : 0 <= ln z) by (rewrite <- ln_1; apply ln_mono; lra). assert (NN : kk * (z - 1 - ln z) <= kk * z) by (apply scale; lra). rewrite KZ in NN. pose proof ln2pi_12. lra.
Qed.
Lemma size_b2 : forall c k f, chern_range c k -> fraction_ok f -> f2R c + extra_of f <= b2 46.
Proof. intros c k f (_ & _ & _ & C) Hf. pose proof (extra_bound f Hf). change (b2 46) with 70368744177664. change (b2 45) with 35184372088832 in C. lra. Qed.

(** Whenever the exact exponent is at least 2 the fallback raises nothing, and the Z-value it returns is finite and satisfies
    |computed - exact| * exact <= 50 * 2^-53 * (chi2 + extra): a relative error of 50 * 2^-53 where Z^2 is about chi2. *)
Theorem C104_accuracy : forall flog c k f, good_log flog -> chern_range c k -> fraction_ok f -> 2 <= exact_exponent (f2R c) (f2R k) (extra_of f) ->
  exists z, chernoff64 flog c k f = Ok z /\ ffin z = true /\ 1 <= exact_z (f2R c) (f2R k) (extra_of f) /\
    Rabs (f2R z - exact_z (f2R c) (f2R k) (extra_of f)) * exact_z (f2R c) (f2R k) (extra_of f) <= 50 * u53 * (f2R c + extra_of f).
Proof.
  intros flog c k f G CR Hf HY. pose proof (exponent_le c k f CR Hf) as YS. pose proof (size_b2 c k f CR Hf) as SB. destruct CR as (Fc & Fk & K & C).
  destruct (full_exponent64 flog c k f G Fc Fk K C Hf) as (v & VF & VE & VB & ->).
  destruct (root64 flog v _ _ G VF VB (conj HY YS) SB VE) as (z & E & F & A & B). exists z. split; [exact E|]. split; [exact F|]. split; [exact B|exact A].
Qed.
(** and where the exact exponent is clearly negative, math.log raises *)
Theorem C104_raises : forall flog c k f, good_log flog -> chern_range c k -> fraction_ok f -> exact_exponent (f2R c) (f2R k) (extra_of f) <= - (27 * u53 * (f2R c + extra_of f)) ->
  chernoff64 flog c k f = Raise ValueError.
Proof.
  intros flog c k f G (Fc & Fk & K & C) Hf HY. destruct (full_exponent64 flog c k f G Fc Fk K C Hf) as (v & VF & VE & VB & ->). apply Rabs_le_inv in VE. rewrite nonpos_raises; [reflexivity|exact VF|lra].
Qed.
(** nothing but ValueError is ever raised, for any floats at all *)
Theorem C104_only_value_error : forall flog fppf fsf c k f e, (chernoff64 flog c k f = Raise e -> e = ValueError) /\ (significance64 flog fppf fsf c k = Raise e -> e = ValueError).
Proof.
  assert (X : forall flog c k f e, chernoff64 flog c k f = Raise e -> e = ValueError).
  { intros flog c k f e. unfold chernoff64, fmlog, fmsqrt. cbv zeta. repeat match goal with |- context [if ?b then _ else _] => destruct b; cbn [rbind] | |- context [match f with Some _ => _ | None => _ end] => destruct f; cbn [rbind] end; congruence. }
  intros flog fppf fsf c k f e. split; [apply X|]. unfold significance64. cbv zeta. destruct (feqb _ _); [|discriminate]. destruct (chernoff64 flog c k None) as [z|e'] eqn:E; cbn [rbind]; [discriminate|]. intros H. injection H as <-. exact (X _ _ _ _ _ E).
Qed.
Lemma exact_z_mono : forall k c c' e, 0 < k -> k <= c -> c <= c' -> 1 <= exact_exponent c k e -> exact_z c k e <= exact_z c' k e.
Proof.
  intros k c c' e K KC CC Y. pose proof (exponent_mono k c c' K KC CC) as M. assert (M' : exact_exponent c k e <= exact_exponent c' k e) by (unfold exact_exponent; unfold chernoff_exponent in M; lra).
  unfold exact_z. cbv zeta. set (a := exact_exponent c k e) in *. set (b := exact_exponent c' k e) in *. pose proof (ln_lip a b ltac:(lra) ltac:(lra)) as L. pose proof (ln_sub1 a ltac:(lra)). pose proof (ln_sub1 b ltac:(lra)).
  assert (Q : (b - a) / a <= b - a). { apply Rmult_le_reg_r with a; [lra|]. unfold Rdiv. rewrite Rmult_assoc, Rinv_l by lra. nra. } apply sqrt_le_1; lra.
Qed.
(** a larger chi2 gives a larger Z-value, up to rounding *)
Theorem C104_monotone : forall flog c c' k f z z', good_log flog -> chern_range c k -> chern_range c' k -> fraction_ok f -> 2 <= exact_exponent (f2R c) (f2R k) (extra_of f) -> f2R c <= f2R c' ->
  chernoff64 flog c k f = Ok z -> chernoff64 flog c' k f = Ok z' -> f2R z <= f2R z' + 100 * u53 * (f2R c' + extra_of f).
Proof.
  intros flog c c' k f z z' G CR CR' Hf HY CC E E'. assert (K0 : 0 < f2R k) by (destruct CR as (_ & _ & K & _); assert (0 < b2 (-100)) by apply bpow_gt_0; lra).
  pose proof CR as (_ & _ & K & _). pose proof (exact_z_mono (f2R k) (f2R c) (f2R c') (extra_of f) K0 ltac:(lra) CC ltac:(lra)) as M.
  assert (HY' : 2 <= exact_exponent (f2R c') (f2R k) (extra_of f)). { pose proof (exponent_mono (f2R k) (f2R c) (f2R c') K0 ltac:(lra) CC) as X. unfold exact_exponent in *. unfold chernoff_exponent in X. lra. }
  destruct (C104_accuracy flog c k f G CR Hf HY) as (y & Ey & _ & Z1 & A). destruct (C104_accuracy flog c' k f G CR' Hf HY') as (y' & Ey' & _ & Z1' & A').
  assert (y = z) by congruence. assert (y' = z') by congruence. subst y y'. set (a := exact_z (f2R c) (f2R k) (extra_of f)) in *. set (b := exact_z (f2R c') (f2R k) (extra_of f)) in *.
  assert (X : Rabs (f2R z - a) * 1 <= Rabs (f2R z - a) * a) by (apply scale; [apply Rabs_pos|exact Z1]). assert (X' : Rabs (f2R z' - b) * 1 <= Rabs (f2R z' - b) * b) by (apply scale; [apply Rabs_pos|exact Z1']).
  assert (U : 50 * u53 * (f2R c + extra_of f) <= 50 * u53 * (f2R c' + extra_of f)) by (apply scale; [pose proof u53_pos; lra|lra]).
  assert (P : Rabs (f2R z - a) <= 50 * u53 * (f2R c' + extra_of f)) by lra. assert (P' : Rabs (f2R z' - b) <= 50 * u53 * (f2R c' + extra_of f)) by lra. apply Rabs_le_inv in P. apply Rabs_le_inv in P'. lra.
Qed.
(** the function itself: a p-value of 0 is returned together with the fallback *)
Theorem C104_significance : forall flog fppf fsf c k, good_log flog -> chern_range c k -> feqb (fsf c k) fzero = true -> 2 <= exact_exponent (f2R c) (f2R k) 0 ->
  exists z, significance64 flog fppf fsf c k = Ok (fsf c k, z) /\ ffin z = true /\ Rabs (f2R z - exact_z (f2R c) (f2R k) 0) * exact_z (f2R c) (f2R k) 0 <= 50 * u53 * f2R c.
Proof.
  intros flog fppf fsf c k G CR E HY. destruct (C104_accuracy flog c k None G CR I HY) as (z & Z & F & _ & A). exists z. unfold significance64. cbv zeta. rewrite E, Z. cbn [rbind]. cbn [extra_of] in A. rewrite Rplus_0_r in A. auto.
Qed.
(** an infinite chi2 gives no error but the Z-value NaN *)
Theorem C104_infinite : forall flog fppf fsf k, good_log flog -> flog fpinf = fpinf -> flog fnan = fnan -> ffin k = true -> 0 < f2R k -> feqb (fsf fpinf k) fzero = true ->
  significance64 flog fppf fsf fpinf k = Ok (fsf fpinf k, fnan).
Proof.
  intros flog fppf fsf k G LI LN F P E. unfold significance64. cbv zeta. rewrite E. destruct (log_2pi flog G) as (PF & _ & PB). destruct fpi_val as [PV PVF].
  destruct k as [s|s| |s m e p]; try discriminate; [unfold f2R in P; cbn [B2R] in P; lra|]. destruct s; [exfalso; unfold f2R in P; cbn [B2R] in P; assert (F2R (Float radix2 (cond_Zopp true (Zpos m)) e) < 0) by (apply F2R_lt_0; reflexivity); lra|].
  set (k := B754_finite false m e p : f64). assert (D : fdiv fpinf k = fpinf) by reflexivity. unfold chernoff64. rewrite (pos_ok flog f2pi PVF) by (rewrite PV; lra). cbn [rbind]. rewrite D. assert (M : fmlog flog fpinf = Ok (flog fpinf)) by reflexivity. rewrite M, LI. cbn [rbind].
  assert (M1 : fmult k fpinf = fpinf) by reflexivity. rewrite M1. assert (M2 : fminus fpinf (ofZ 1) = fpinf) by (destruct (ofZ_spec 1 ltac:(lia)) as [_ OF]; destruct (ofZ 1); try discriminate; reflexivity). rewrite M2, M1.
  assert (M3 : fminus (fopp (flog f2pi)) fpinf = fminf) by (destruct (flog f2pi); try discriminate; reflexivity). rewrite M3. assert (M4 : fplus fminf fpinf = fnan) by reflexivity. rewrite M4. assert (M5 : fmlog flog fnan = Ok (flog fnan)) by reflexivity. rewrite M5, LN. reflexivity.
Qed.
(** chi2 = 2000 with 1 degree of freedom (the p-value, about 1e-436, is below the smallest float), also with the fraction 1/2 of a fit *)
Definition fhalf104 : f64 := fdiv (ofZ 1) (ofZ 2).
Example C104_case : chern_range (ofZ 2000) (ofZ 1) /\ fraction_ok (Some fhalf104) /\ 2 <= exact_exponent (f2R (ofZ 2000)) (f2R (ofZ 1)) 0 /\ 2 <= exact_exponent (f2R (ofZ 2000)) (f2R (ofZ 1)) (extra_of (Some fhalf104)).
Proof.
  destruct (ofZ_spec 2000 ltac:(lia)) as [A AF]. destruct (ofZ_spec 1 ltac:(lia)) as [B BF]. destruct (ofZ_spec 2 ltac:(lia)) as [D DF].
  assert (HV : f2R fhalf104 = / 2 /\ ffin fhalf104 = true). { destruct (fdiv_spec (ofZ 1) (ofZ 2) 1 BF ltac:(rewrite D; lra) ltac:(lia)) as [X Y]. { rewrite B, D. change (bpow radix2 1) with 2. apply Rabs_le. lra. }
    split; [|exact Y]. unfold fhalf104. rewrite X, B, D. replace (1 / 2) with (bpow radix2 (-1)) by (change (bpow radix2 (-1)) with (/ 2); lra). rewrite rnd_id by (apply fmt_bpow; lia). reflexivity. }
  destruct HV as [HV HF]. assert (B1 : b2 (-100) <= 1) by (change 1 with (b2 0); apply Flocq.Core.Raux.bpow_le; lia).
  assert (E : 2 <= exact_exponent 2000 1 0). { unfold exact_exponent. replace (2000 / 1) with 2000 by field. pose proof (ln_sqrt_bound 2000 ltac:(lra)). pose proof ln2pi_12. lra. }
  split; [unfold chern_range; rewrite A, B; change (b2 45) with 35184372088832; repeat split; try assumption; lra|]. split; [change (ffin fhalf104 = true /\ 0 < f2R fhalf104 <= 1); rewrite HV; split; [exact HF|lra]|]. rewrite A, B. split; [exact E|].
  change (extra_of (Some fhalf104)) with (- (2 * ln (f2R fhalf104))). rewrite HV. rewrite ln_Rinv by lra. pose proof (ln_mono 1 2 ltac:(lra) ltac:(lra)) as L. rewrite ln_1 in L. unfold exact_exponent in *. lra.
Qed.
