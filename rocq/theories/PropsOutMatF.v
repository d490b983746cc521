(** C113: outlier p-values and Z-values in binary64 arithmetic, from the counts to the matrix. *)
From Coq Require Import String ZArith List Bool Reals Lra Lia Sorting.Permutation.
From Flocq Require Import Core BinarySingleNaN.
From Verif Require Import F64 Base Cells BinModel HistModel SpecHist HistProofs RSum Num PhikModel SpecPhik FrameProofs PhikInvProofs BrentFModel BrentFProofs Chi2FModel Chi2FProofs GlobFModel ZTailModel LinspaceProofs OutFModel SpecOutF OutFProofs PropsOutF OutModel SpecOut OutMatFModel SpecOutMatF PropsOrder.
Import ListNotations.
Open Scope list_scope.

(** * the continued fraction *)
Lemma test_finite : forall E v p, flt (fabs (fminus v p)) (fmult E (fabs v)) = true -> ffin v = true /\ f2R v <> 0%R /\ ffin p = true.
Proof.
  intros E v p H. destruct v as [sv|sv| |sv mv ev pv].
  - exfalso. destruct p as [sp|sp| |sp mp ep pp], E as [se|se| |se me ee pe]; destruct sv; try destruct sp; try destruct se; discriminate H.
  - exfalso. destruct p as [sp|sp| |sp mp ep pp], E as [se|se| |se me ee pe]; destruct sv; try destruct sp; try destruct se; discriminate H.
  - exfalso. destruct p; discriminate H.
  - split; [reflexivity|]. split; [unfold f2R; cbn [B2R]; intros Z; apply eq_0_F2R in Z; destruct sv; discriminate Z|]. destruct p as [sp|sp| |sp mp ep pp]; try reflexivity.
    + exfalso. set (y := fmult E _) in H. clearbody y. destruct sp, y as [[|]|[|]| |[|] m e q]; discriminate H.
    + exfalso. discriminate H.
Qed.
Lemma test_real : forall E v p, ffin E = true -> (0 <= f2R E <= 1)%R -> ffin v = true -> ffin p = true ->
  (flt (fabs (fminus v p)) (fmult E (fabs v)) = true <-> agree E p v).
Proof.
  intros E v p FE BE FV FP. destruct (fabs_val v) as [AV AF].
  unfold agree.
  pose proof (Bmult_correct 53 1024 _ _ mode_NE E (fabs v)) as M. change (Bmult mode_NE E (fabs v)) with (fmult E (fabs v)) in M. change (B2R E) with (f2R E) in M. change (B2R (fabs v)) with (f2R (fabs v)) in M. rewrite AV in M.
  change (round radix2 (SpecFloat.fexp 53 1024) (round_mode mode_NE) (f2R E * Rabs (f2R v))) with (rnd (f2R E * Rabs (f2R v))) in M.
  assert (MB : (0 <= rnd (f2R E * Rabs (f2R v)) <= Rabs (f2R v))%R).
  { pose proof (Rabs_pos (f2R v)) as P. split; [apply rnd_lb; [apply (fmt_IZR 0); simpl; lia|apply Rmult_le_pos; lra]|]. apply rnd_ub; [apply generic_format_abs, fmt_B2R|]. rewrite <- (Rmult_1_l (Rabs (f2R v))) at 2. apply Rmult_le_compat_r; lra. }
  rewrite Rlt_bool_true in M by (rewrite Rabs_pos_eq by apply MB; eapply Rle_lt_trans; [apply MB|apply abs_B2R_lt_emax]). destruct M as (M1 & M2 & _). change (B2R (fmult E (fabs v))) with (f2R (fmult E (fabs v))) in M1.
  assert (MF : ffin (fmult E (fabs v)) = true) by (unfold ffin in *; rewrite M2, FE; cbn [andb]; rewrite AF; exact FV).
  pose proof (Bminus_correct 53 1024 _ _ mode_NE v p FV FP) as D. change (Bminus mode_NE v p) with (fminus v p) in D. change (B2R v) with (f2R v) in D. change (B2R p) with (f2R p) in D.
  change (round radix2 (SpecFloat.fexp 53 1024) (round_mode mode_NE) (f2R v - f2R p)) with (rnd (f2R v - f2R p)) in D.
  destruct (Rlt_bool_spec (Rabs (rnd (f2R v - f2R p))) (bpow radix2 1024)) as [O|O].
  - destruct D as (D1 & D2 & _). change (B2R (fminus v p)) with (f2R (fminus v p)) in D1. change (is_finite (fminus v p)) with (ffin (fminus v p)) in D2. destruct (fabs_val (fminus v p)) as [AD DF].
    assert (DF2 : ffin (fabs (fminus v p)) = true) by (rewrite DF, D2; exact FV || reflexivity).
    rewrite (flt_spec _ _ DF2 MF), AD, D1, M1. tauto.
  - destruct D as [D _]. split.
    + intros H. exfalso. assert (X : fabs (fminus v p) = B754_infinity false). { destruct (fminus v p) as [s|s| |s m e q]; try discriminate D. reflexivity. } rewrite X in H. destruct (fmult E (fabs v)) as [[|]|[|]| |[|] m e q]; discriminate H.
    + intros (_ & _ & H). exfalso. pose proof (abs_B2R_lt_emax 53 1024 v) as L. change (B2R v) with (f2R v) in L. lra.
Qed.
Lemma test_iff : forall E v p, ffin E = true -> (0 <= f2R E <= 1)%R -> (flt (fabs (fminus v p)) (fmult E (fabs v)) = true <-> agree E p v).
Proof.
  intros E v p FE BE. split; intros H.
  - destruct (test_finite _ _ _ H) as (A & _ & B). apply (proj1 (test_real E v p FE BE A B)). exact H.
  - destruct H as (B & A & H). apply (proj2 (test_real E v p FE BE A B)). split; [exact B|]. split; [exact A|exact H].
Qed.
(** the loop variables after k iterations *)
Fixpoint after (py : bool) (a b x : f64) (k : nat) : res cf64 :=
  match k with O => cf_start64 py a b x | S k' => let* s := after py a b x k' in cf_step64 py a b x k' s end.
Definition conv (py : bool) (a b x : f64) (k : nat) (v : f64) : Prop := exists s, after py a b x k = Ok s /\ az64 s = v.
Lemma pdiv_ok : forall py u v w, pdiv py u v = Ok w <-> allowed py v /\ w = fdiv u v.
Proof.
  intros py u v w. unfold pdiv, allowed. destruct py; cbn [andb].
  - destruct (feqb v fzero); split; intros H; [discriminate H|destruct H as [H _]; specialize (H eq_refl); discriminate H|split; [reflexivity|congruence]|destruct H as [_ ->]; reflexivity].
  - split; intros H; [split; [discriminate|congruence]|destruct H as [_ ->]; reflexivity].
Qed.
Lemma after_frac : forall py a b x k A B A' B', after py a b x k = Ok (mkCf64 A B A' B') <-> fraction py a b x k A B A' B'.
Proof.
  intros py a b x k. induction k as [|k IH]; intros A B A' B'; split; intros H.
  - cbn [after] in H. unfold cf_start64 in H. destruct (pdiv _ _ _) as [q|] eqn:Q; [|discriminate H]. cbn [rbind] in H. apply pdiv_ok in Q. destruct Q as [Q ->]. assert (A = fone) by congruence. assert (B = fone) by congruence. assert (A' = fone) by congruence. assert (B' = fminus fone (fdiv (fmult (fplus a b) x) (fplus a fone))) by congruence. subst. constructor. exact Q.
  - inversion H as [Q|]; subst. cbn [after]. unfold cf_start64. rewrite (proj2 (pdiv_ok py (fmult (fplus a b) x) (fplus a fone) _) (conj Q eq_refl)). reflexivity.
  - cbn [after] in H. destruct (after py a b x k) as [[A0 B0 A0' B0']|] eqn:E; [|discriminate H]. cbn [rbind] in H. clear E. pose proof (proj1 (IH A0 B0 A0' B0') eq_refl) as E. unfold cf_step64 in H. cbv zeta in H. cbn [am64 bm64 az64 bz64] in H.
    destruct (pdiv _ _ _) as [d|] eqn:E1 in H; [|discriminate H]. cbn [rbind] in H. destruct (pdiv _ _ _) as [d'|] eqn:E2 in H; [|discriminate H]. cbn [rbind] in H.
    destruct (pdiv _ _ _) as [u1|] eqn:E3 in H; [|discriminate H]. cbn [rbind] in H. destruct (pdiv _ _ _) as [u2|] eqn:E4 in H; [|discriminate H]. cbn [rbind] in H. destruct (pdiv _ _ _) as [u3|] eqn:E5 in H; [|discriminate H]. cbn [rbind] in H.
    apply pdiv_ok in E1, E2, E3, E4, E5. destruct E1 as [Q1 ->], E2 as [Q2 ->], E3 as [Q3 ->], E4 as [_ ->], E5 as [_ ->].
    assert (HA := f_equal (fun r => match r with Ok s => am64 s | Raise _ => fnan end) H). assert (HB := f_equal (fun r => match r with Ok s => bm64 s | Raise _ => fnan end) H). assert (HC := f_equal (fun r => match r with Ok s => az64 s | Raise _ => fnan end) H). assert (HD := f_equal (fun r => match r with Ok s => bz64 s | Raise _ => fnan end) H).
    cbv beta iota in HA, HB, HC, HD. cbn [am64 bm64 az64 bz64] in HA, HB, HC, HD. rewrite <- HA, <- HB, <- HC, <- HD. rewrite Nat2Z.inj_succ in *. exact (frac_next py a b x k A0 B0 A0' B0' E Q1 Q2 Q3).
  - inversion H as [|k0 A0 B0 A0' B0' F m Q1 Q2 d d' A2 B2 A3 B3 Q3]; subst. apply (proj2 (IH _ _ _ _)) in F. cbn [after]. rewrite F. cbn [rbind]. unfold cf_step64. cbv zeta. cbn [am64 bm64 az64 bz64]. rewrite Nat2Z.inj_succ. change (Z.succ (Z.of_nat k)) with (Z.of_nat k + 1)%Z.
    fold m. rewrite (proj2 (pdiv_ok py (fmult (fmult m (fminus b m)) x) (fmult (fplus (fminus a fone) (fplus m m)) (fplus a (fplus m m))) d) (conj Q1 eq_refl)). cbn [rbind]. rewrite (proj2 (pdiv_ok py (fmult (fmult (fopp (fplus a m)) (fplus (fplus a b) m)) x) (fmult (fplus (fplus a fone) (fplus m m)) (fplus a (fplus m m))) d') (conj Q2 eq_refl)). cbn [rbind].
    rewrite !(fun n => proj2 (pdiv_ok py n B3 _) (conj Q3 eq_refl)). reflexivity.
Qed.
Lemma conv_iff : forall py a b x k v, convergent py a b x k v <-> conv py a b x k v.
Proof.
  intros py a b x k v. split.
  - intros (A & B & B' & F). apply after_frac in F. eexists. split; [exact F|reflexivity].
  - intros ([A B A' B'] & F & <-). apply after_frac in F. exists A, B, B'. exact F.
Qed.
Section CF.
  Variables (py : bool) (a b x EPS : f64).
  Hypothesis FE : ffin EPS = true.
  Hypothesis BE : (0 <= f2R EPS <= 1)%R.
  Lemma loop_ok : forall n i s v, after py a b x i = Ok s -> cf_loop64 py a b x EPS n i s = Ok v ->
    exists k p, (i <= k < i + n)%nat /\ conv py a b x k p /\ conv py a b x (S k) v /\ agree EPS p v /\
      forall k' p' v', (i <= k' < k)%nat -> conv py a b x k' p' -> conv py a b x (S k') v' -> ~ agree EPS p' v'.
  Proof.
    induction n as [|n IH]; intros i s v A H; [discriminate H|]. cbn [cf_loop64] in H. destruct (cf_step64 py a b x i s) as [s'|e] eqn:T; [|discriminate H]. cbn [rbind] in H.
    assert (A' : after py a b x (S i) = Ok s') by (cbn [after]; rewrite A; exact T).
    destruct (flt _ _) eqn:F.
    - injection H as <-. exists i, (az64 s). split; [lia|]. split; [exists s; auto|]. split; [exists s'; auto|]. split; [apply (proj1 (test_iff _ _ _ FE BE)); exact F|]. intros; lia.
    - destruct (IH _ _ _ A' H) as (k & p & K & C1 & C2 & AG & NO). exists k, p. split; [lia|]. split; [exact C1|]. split; [exact C2|]. split; [exact AG|].
      intros k' p' v' K' D1 D2 AG'. destruct (Nat.eq_dec k' i) as [->|NE]; [|exact (NO k' p' v' ltac:(lia) D1 D2 AG')].
      destruct D1 as (s1 & D1 & <-), D2 as (s2 & D2 & <-). rewrite A in D1. injection D1 as <-. rewrite A' in D2. injection D2 as <-. apply (proj2 (test_iff _ _ _ FE BE)) in AG'. congruence.
  Qed.
  Lemma loop_found : forall n i s k p v, after py a b x i = Ok s -> (i <= k < i + n)%nat -> conv py a b x k p -> conv py a b x (S k) v -> agree EPS p v ->
    (forall k' p' v', (i <= k' < k)%nat -> conv py a b x k' p' -> conv py a b x (S k') v' -> ~ agree EPS p' v') -> cf_loop64 py a b x EPS n i s = Ok v.
  Proof.
    induction n as [|n IH]; intros i s k p v A K C1 C2 AG NO; [lia|]. cbn [cf_loop64].
    assert (AS : forall m, (m <= S k)%nat -> exists t, after py a b x m = Ok t).
    { intros m Hm. destruct C2 as (t & C2 & _). revert t C2. generalize (S k) Hm. clear. intros N Hm. induction Hm as [|N Hm IH]; intros t H; [exists t; exact H|]. cbn [after] in H. destruct (after py a b x N) as [t'|] eqn:E; [|discriminate H]. exact (IH t' eq_refl). }
    destruct (AS (S i) ltac:(lia)) as (s' & A'). pose proof A' as T. cbn [after] in T. rewrite A in T. cbn [rbind] in T. rewrite T. cbn [rbind].
    destruct (flt _ _) eqn:F.
    - apply (proj1 (test_iff _ _ _ FE BE)) in F. destruct (Nat.eq_dec k i) as [->|NE]; [destruct C2 as (s2 & D2 & <-); congruence|].
      exfalso. exact (NO i (az64 s) (az64 s') ltac:(lia) (ex_intro _ s (conj A eq_refl)) (ex_intro _ s' (conj A' eq_refl)) F).
    - destruct (Nat.eq_dec k i) as [->|NE].
      + exfalso. destruct C1 as (s1 & D1 & <-), C2 as (s2 & D2 & <-). rewrite A in D1. injection D1 as <-. rewrite A' in D2. injection D2 as <-. apply (proj2 (test_iff _ _ _ FE BE)) in AG. congruence.
      + apply (IH (S i) s' k p v A' ltac:(lia) C1 C2 AG). intros k' p' v' K'. apply NO. lia.
  Qed.
End CF.
(** contfractbeta returns v exactly when v is the first value of the fraction that agrees with the one before it, among the first ITMAX+1 steps *)
Lemma contfract_conv : forall py a b x ITMAX EPS v, ffin EPS = true -> (0 <= f2R EPS <= 1)%R ->
  (contfractbeta64 py a b x ITMAX EPS = Ok v <->
   exists k p, (k <= ITMAX)%nat /\ conv py a b x k p /\ conv py a b x (S k) v /\ agree EPS p v /\
     forall k' p' v', (k' < k)%nat -> conv py a b x k' p' -> conv py a b x (S k') v' -> ~ agree EPS p' v').
Proof.
  intros py a b x N EPS v FE BE. unfold contfractbeta64. split.
  - intros H. destruct (cf_start64 py a b x) as [s|] eqn:A; [|discriminate H]. cbn [rbind] in H. destruct (loop_ok py a b x EPS FE BE (S N) 0 s v A H) as (k & p & K & C1 & C2 & AG & NO). exists k, p. split; [lia|]. split; [exact C1|]. split; [exact C2|]. split; [exact AG|]. intros k' p' v' K'. apply NO. lia.
  - intros (k & p & K & C1 & C2 & AG & NO). destruct (cf_start64 py a b x) as [s|] eqn:A.
    + cbn [rbind]. apply (loop_found py a b x EPS FE BE (S N) 0 s k p v A ltac:(lia) C1 C2 AG). intros k' p' v' K'. apply NO. lia.
    + exfalso. assert (X : forall m, after py a b x m = Raise e) by (induction m as [|m IH]; cbn [after]; [exact A|rewrite IH; reflexivity]). destruct C1 as (t & C1 & _). rewrite X in C1. discriminate C1.
Qed.
Theorem C113_contfract : forall py a b x ITMAX EPS v, ffin EPS = true -> (0 <= f2R EPS <= 1)%R ->
  (contfractbeta64 py a b x ITMAX EPS = Ok v <->
   exists k p, (k <= ITMAX)%nat /\ convergent py a b x k p /\ convergent py a b x (S k) v /\ agree EPS p v /\
     forall k' p' v', (k' < k)%nat -> convergent py a b x k' p' -> convergent py a b x (S k') v' -> ~ agree EPS p' v').
Proof.
  intros py a b x N EPS v FE BE. rewrite (contfract_conv py a b x N EPS v FE BE). split.
  - intros (k & p & K & C1 & C2 & AG & NO). exists k, p. rewrite !conv_iff. split; [exact K|]. split; [exact C1|]. split; [exact C2|]. split; [exact AG|]. intros k' p' v' K' D1 D2. rewrite conv_iff in D1, D2. exact (NO k' p' v' K' D1 D2).
  - intros (k & p & K & C1 & C2 & AG & NO). exists k, p. rewrite <- !conv_iff. split; [exact K|]. split; [exact C1|]. split; [exact C2|]. split; [exact AG|]. intros k' p' v' K' D1 D2. rewrite <- conv_iff in D1, D2. exact (NO k' p' v' K' D1 D2).
Qed.
Print Assumptions C113_contfract.
(** more iterations never change a value that was returned; it is finite and not 0 *)
Theorem C113_contfract_stable : forall py a b x ITMAX ITMAX' EPS v, (ITMAX <= ITMAX')%nat -> contfractbeta64 py a b x ITMAX EPS = Ok v ->
  contfractbeta64 py a b x ITMAX' EPS = Ok v /\ ffin v = true /\ f2R v <> 0%R.
Proof.
  intros py a b x N N' EPS v L H. unfold contfractbeta64 in *. destruct (cf_start64 py a b x) as [s|]; [|discriminate H]. cbn [rbind] in *.
  assert (LE : (S N <= S N')%nat) by lia. revert LE H. generalize (S N') 0%nat s. generalize (S N). clear. intros n. induction n as [|n IH]; intros n' i s LE H; [discriminate H|]. destruct n' as [|n']; [lia|]. cbn [cf_loop64] in *.
  destruct (cf_step64 py a b x i s) as [s'|]; [|discriminate H]. cbn [rbind] in *. destruct (flt _ _) eqn:F; [|apply IH; [lia|exact H]]. assert (v = az64 s') by congruence. subst v. split; [reflexivity|]. destruct (test_finite _ _ _ F) as (A & B & _). split; assumption.
Qed.
Print Assumptions C113_contfract_stable.
Lemma pdiv_np : forall u v, pdiv false u v = Ok (fdiv u v). Proof. reflexivity. Qed.
Lemma pdiv_err : forall py u v e, pdiv py u v = Raise e -> py = true /\ e = ZeroDivisionError.
Proof. intros py u v e H. unfold pdiv in H. destruct py; cbn [andb] in H; [|discriminate H]. destruct (feqb v fzero); [|discriminate H]. injection H as <-. auto. Qed.
Lemma step_err : forall py a b x i s e, cf_step64 py a b x i s = Raise e -> py = true /\ e = ZeroDivisionError.
Proof.
  intros py a b x i s e H. unfold cf_step64 in H. cbv zeta in H. destruct (pdiv _ _ _) as [d|] eqn:E1 in H; [|cbn [rbind] in H; injection H as <-; eapply pdiv_err; exact E1]. cbn [rbind] in H.
  destruct (pdiv _ _ _) as [d'|] eqn:E2 in H; [|cbn [rbind] in H; injection H as <-; eapply pdiv_err; exact E2]. cbn [rbind] in H.
  destruct (pdiv _ _ _) as [u1|] eqn:E3 in H; [|cbn [rbind] in H; injection H as <-; eapply pdiv_err; exact E3]. cbn [rbind] in H.
  destruct (pdiv _ _ _) as [u2|] eqn:E4 in H; [|cbn [rbind] in H; injection H as <-; eapply pdiv_err; exact E4]. cbn [rbind] in H.
  destruct (pdiv _ _ _) as [u3|] eqn:E5 in H; [|cbn [rbind] in H; injection H as <-; eapply pdiv_err; exact E5]. cbn [rbind] in H. discriminate H.
Qed.
Theorem C113_contfract_errors : forall py a b x ITMAX EPS e, contfractbeta64 py a b x ITMAX EPS = Raise e -> e = ValueError \/ (py = true /\ e = ZeroDivisionError).
Proof.
  intros py a b x N EPS e H. unfold contfractbeta64 in H. destruct (cf_start64 py a b x) as [s|e'] eqn:A.
  - cbn [rbind] in H. clear A. revert s H. generalize 0%nat. generalize (S N). intros n. induction n as [|n IH]; intros i s H; [left; cbn [cf_loop64] in H; congruence|]. cbn [cf_loop64] in H. destruct (cf_step64 py a b x i s) as [s'|e'] eqn:T; cbn [rbind] in H; [destruct (flt _ _); [discriminate H|exact (IH _ _ H)]|]. right. assert (e' = e) by congruence. subst e'. exact (step_err _ _ _ _ _ _ _ T).
  - right. cbn [rbind] in H. assert (e' = e) by congruence. subst e'. unfold cf_start64 in A. destruct (pdiv _ _ _) as [q|e2] eqn:Q in A; [discriminate A|]. cbn [rbind] in A. assert (e2 = e) by congruence. subst e2. exact (pdiv_err _ _ _ _ Q).
Qed.
Print Assumptions C113_contfract_errors.
Lemma nan_p_l : forall y, fplus fnan y = fnan. Proof. intros [s|s| |s m e p]; reflexivity. Qed.
Lemma nan_p_r : forall y, fplus y fnan = fnan. Proof. intros [s|s| |s m e p]; reflexivity. Qed.
Lemma nan_m_l : forall y, fminus fnan y = fnan. Proof. intros [s|s| |s m e p]; reflexivity. Qed.
Lemma nan_m_r : forall y, fminus y fnan = fnan. Proof. intros [s|s| |s m e p]; reflexivity. Qed.
Lemma nan_t_l : forall y, fmult fnan y = fnan. Proof. intros [s|s| |s m e p]; reflexivity. Qed.
Lemma nan_t_r : forall y, fmult y fnan = fnan. Proof. intros [s|s| |s m e p]; reflexivity. Qed.
Lemma nan_d_l : forall y, fdiv fnan y = fnan. Proof. intros [s|s| |s m e p]; reflexivity. Qed.
Lemma nan_d_r : forall y, fdiv y fnan = fnan. Proof. intros [s|s| |s m e p]; reflexivity. Qed.
Lemma nan_o : fopp fnan = fnan. Proof. reflexivity. Qed.
Lemma flt_nan_l : forall w, flt fnan w = false. Proof. intros [s|s| |s m e p]; reflexivity. Qed.
Global Hint Rewrite nan_p_l nan_p_r nan_m_l nan_m_r nan_t_l nan_t_r nan_d_l nan_d_r nan_o : nanf.
Theorem C113_contfract_nan : forall a b x ITMAX EPS, a = fnan \/ b = fnan \/ x = fnan -> contfractbeta64 false a b x ITMAX EPS = Raise ValueError.
Proof.
  intros a b x N EPS H. unfold contfractbeta64, cf_start64. rewrite pdiv_np. cbn [rbind]. match goal with |- cf_loop64 _ _ _ _ _ _ _ ?s0 = _ => generalize s0 end. generalize 0%nat. generalize (S N). intros n. induction n as [|n IH]; intros i s; [reflexivity|]. cbn [cf_loop64].
  unfold cf_step64, pdiv. cbv zeta. cbn [andb rbind am64 bm64 az64 bz64].
  match goal with |- (if flt (fabs (fminus ?w _)) _ then _ else _) = _ => assert (W : w = fnan) by (destruct H as [-> | [-> | ->]]; autorewrite with nanf; reflexivity) end. rewrite W. autorewrite with nanf.
  match goal with |- (if flt ?u ?w then _ else _) = _ => assert (F : flt u w = false) by (change u with fnan; apply flt_nan_l) end. rewrite F. apply IH.
Qed.
Print Assumptions C113_contfract_nan.

(** * the incomplete beta function and its logarithm *)
Section Beta.
  Variables fgammaln flog fexpo : f64 -> f64.
  (** log(x^a (1-x)^b / B(a, b)) *)
  Definition front (a b x : f64) : f64 := fplus (fplus (fminus (fminus (fgammaln (fplus a b)) (fgammaln a)) (fgammaln b)) (fmult a (flog x))) (fmult b (flog (fminus fone x))).
  Theorem C113_incompbeta : forall a b x, let I := incompbeta64 fgammaln flog fexpo a b x in let LI := log_incompbeta64 fgammaln flog fexpo a b x in let F := front a b x in
    (feqb x fzero = true -> I = Ok fzero /\ LI = Ok (fminf, fzero)) /\ (feqb x fone = true -> I = Ok fone /\ LI = Ok (fzero, fminf)) /\
    (feqb x fzero = false -> feqb x fone = false ->
      (flt x (fdiv (fplus a fone) (fplus (fplus a b) (ofZ 2))) = true ->
         (forall v, contfractbeta64 false a b x 5000 eps64 = Ok v -> let w := fdiv (fmult (fexpo F) v) a in I = Ok w /\ LI = Ok (fminus (fplus F (flog v)) (flog a), flog (fminus fone w))) /\
         (forall e, contfractbeta64 false a b x 5000 eps64 = Raise e -> I = Raise ValueError /\ LI = Raise ValueError)) /\
      (flt x (fdiv (fplus a fone) (fplus (fplus a b) (ofZ 2))) = false -> let y := fminus fone x in
         (forall v, contfractbeta64 false b a y 5000 eps64 = Ok v -> I = Ok (fminus fone (fdiv (fmult (fexpo F) v) b)) /\ LI = Ok (flog (fminus fone (fmult (fexpo F) (fdiv v b))), fminus (fplus F (flog v)) (flog b))) /\
         (forall e, contfractbeta64 false b a y 5000 eps64 = Raise e -> I = Raise ValueError /\ LI = Raise ValueError))).
  Proof.
    intros a b x I LI F. assert (EXC : feqb x fone = true -> feqb x fzero = false). { intros X1. destruct x as [s|s| |s q e pr]; try reflexivity; destruct s; try reflexivity; vm_compute in X1; discriminate X1. }
    assert (VE : forall u v w e, contfractbeta64 false u v w 5000 eps64 = Raise e -> e = ValueError). { intros u v w e H. destruct (C113_contfract_errors _ _ _ _ _ _ _ H) as [E|[E _]]; [exact E|discriminate E]. }
    unfold I, LI, incompbeta64, log_incompbeta64. split; [intros ->; auto|]. split; [intros X1; rewrite (EXC X1), X1; auto|]. intros -> ->. cbv zeta. change (lbeta64 fgammaln flog a b x) with F. unfold low_side64.
    assert (DF : forall u v w, cf_default64 u v w = contfractbeta64 false u v w 5000 eps64) by reflexivity. rewrite !DF.
    split; intros ->; (split; intros v H; rewrite H; cbn [rbind]; [split; reflexivity|apply VE in H; subst v; split; reflexivity]).
  Qed.
End Beta.
Print Assumptions C113_incompbeta.
Theorem C113_tolerance : (Rabs (f2R eps64 - / 10000000) <= bpow radix2 (-76))%R.
Proof. unfold eps64. destruct (flit_spec 944473296573929 (-73) ltac:(lia) ltac:(lia) ltac:(lia)) as [E _]. rewrite E. change (bpow radix2 (-73)) with (/ 9444732965739290427392)%R. change (bpow radix2 (-76)) with (/ 75557863725914323419136)%R. apply Rabs_le. split; lra. Qed.
(** * the cells of the outlier matrix *)
Section Cells.
  Variable fbetainc : f64 -> f64 -> f64 -> f64.
  Variable fgammaln : f64 -> f64.
  Variables fpsf fplogsf : f64 -> f64 -> f64.
  Variables fppf flog fexpo pow2 : f64 -> f64.
  Notation cell64 := (out_cell64 fbetainc fgammaln fpsf fplogsf fppf flog fexpo pow2).
  Notation hist64 := (outlier_hist2d_64 fbetainc fgammaln fpsf fplogsf fppf flog fexpo pow2).
  Notation midp := (poisson_obs_mid_p64 fbetainc fpsf).

  Lemma cf_error : forall a b x e, cf_default64 a b x = Raise e -> e = ValueError.
  Proof. intros a b x e H. destruct (C113_contfract_errors _ _ _ _ _ _ _ H) as [E|[E _]]; [exact E|discriminate E]. Qed.
  Lemma linc_error : forall a b x e, log_incompbeta64 fgammaln flog fexpo a b x = Raise e -> e = ValueError.
  Proof.
    intros a b x e H. unfold log_incompbeta64 in H. destruct (feqb x fzero); [discriminate H|]. destruct (feqb x fone); [discriminate H|]. cbv zeta in H. destruct (low_side64 a b x); destruct (cf_default64 _ _ _) as [t|e'] eqn:C in H; try discriminate H; cbn [rbind] in H; assert (e' = e) by congruence; subst e'; exact (cf_error _ _ _ _ C).
  Qed.
  Lemma logp_error : forall n e s r, log_poisson_obs_p64 fgammaln fpsf fplogsf flog fexpo n e s = Raise r -> r = ValueError.
  Proof.
    intros n e s r H. unfold log_poisson_obs_p64 in H. destruct (n =? 0)%Z; [discriminate H|]. destruct (flt fzero s); [|discriminate H]. destruct (linnemann64 e s) as [b x]. exact (linc_error _ _ _ _ H).
  Qed.
  Lemma logmid_error : forall n e s r, log_poisson_obs_mid_p64 fgammaln fpsf fplogsf flog fexpo n e s = Raise r -> r = ValueError.
  Proof.
    intros n e s r H. unfold log_poisson_obs_mid_p64 in H. destruct (log_poisson_obs_p64 _ _ _ _ _ n e s) as [t|r'] eqn:A; cbn [rbind] in H; [|assert (r' = r) by congruence; subst r'; exact (logp_error _ _ _ _ A)].
    destruct (log_poisson_obs_p64 _ _ _ _ _ (n + 1) e s) as [t1|r'] eqn:B; cbn [rbind] in H; [discriminate H|assert (r' = r) by congruence; subst r'; exact (logp_error _ _ _ _ B)].
  Qed.
  Lemma cell_error : forall t i j r, cell64 t i j = Raise r -> let es := estimate64 pow2 t i j in let p := midp (z_el t i j) (fst es) (snd es) in r = ValueError /\ (feqb p fzero = true \/ feqb p fone = true).
  Proof.
    intros t i j r H es p. unfold out_cell64 in H. cbv zeta in H. fold es p in H. unfold poisson_obs_mid_z64, z_of_p64 in H. fold p in H. destruct (feqb p fzero) eqn:Z.
    - cbn [orb] in H. destruct (log_poisson_obs_mid_p64 _ _ _ _ _ _ _ _) as [w|r'] eqn:L; [discriminate H|]. cbn [rbind] in H. assert (r' = r) by congruence. subst r'. split; [exact (logmid_error _ _ _ _ L)|left; reflexivity].
    - destruct (feqb p fone) eqn:O; [|discriminate H]. cbn [orb] in H. destruct (log_poisson_obs_mid_p64 _ _ _ _ _ _ _ _) as [w|r'] eqn:L; [discriminate H|]. cbn [rbind] in H. assert (r' = r) by congruence. subst r'. split; [exact (logmid_error _ _ _ _ L)|right; reflexivity].
  Qed.
  (** the matrix has the shape of the table and is filled cell by cell *)
  Theorem C113_cells : forall t m, hist64 t = Ok m -> length m = z_nr t /\ forall i j, (i < z_nr t)%nat -> (j < z_nc t)%nat ->
    length (nth i m []) = z_nc t /\ cell64 t i j = Ok (nth j (nth i m []) (fnan, fnan)).
  Proof.
    intros t m H. unfold outlier_hist2d_64 in H. split; [rewrite (mapM_length _ _ _ _ _ H); apply seq_length|]. intros i j Hi Hj.
    pose proof (mapM_nth _ _ _ _ _ 0%nat [] i H ltac:(rewrite seq_length; exact Hi)) as R. rewrite seq_nth in R by exact Hi. cbn [Nat.add] in R. split; [rewrite (mapM_length _ _ _ _ _ R); apply seq_length|].
    pose proof (mapM_nth _ _ _ _ _ 0%nat (fnan, fnan) j R ltac:(rewrite seq_length; exact Hj)) as Q. rewrite seq_nth in Q by exact Hj. exact Q.
  Qed.
  Lemma hist_defined : forall t, (forall i j, (i < z_nr t)%nat -> (j < z_nc t)%nat -> exists c, cell64 t i j = Ok c) -> exists m, hist64 t = Ok m.
  Proof.
    intros t H. unfold outlier_hist2d_64. destruct (mapM _ _) as [m|e] eqn:E; [exists m; reflexivity|]. exfalso. apply PairMatProofs.mapM_raise in E. destruct E as (i & Hi & E). apply in_seq in Hi. apply PairMatProofs.mapM_raise in E. destruct E as (j & Hj & E). apply in_seq in Hj. destruct (H i j ltac:(lia) ltac:(lia)) as (c & C). rewrite C in E. discriminate E.
  Qed.
  (** only ValueError, and only where a p-value is exactly 0 or 1 *)
  Theorem C113_errors : forall t r, hist64 t = Raise r -> r = ValueError /\ exists i j, (i < z_nr t)%nat /\ (j < z_nc t)%nat /\
    let es := estimate64 pow2 t i j in let p := midp (z_el t i j) (fst es) (snd es) in feqb p fzero = true \/ feqb p fone = true.
  Proof.
    intros t r H. unfold outlier_hist2d_64 in H. apply PairMatProofs.mapM_raise in H. destruct H as (i & Hi & E). apply in_seq in Hi. apply PairMatProofs.mapM_raise in E. destruct E as (j & Hj & E). apply in_seq in Hj. destruct (cell_error t i j r E) as [A B]. split; [exact A|]. exists i, j. split; [lia|]. split; [lia|exact B].
  Qed.
  (** a cell whose p-value is neither 0 nor 1 *)
  Theorem C113_plain_cell : forall t i j, let es := estimate64 pow2 t i j in let p := midp (z_el t i j) (fst es) (snd es) in feqb p fzero = false -> feqb p fone = false -> cell64 t i j = Ok (p, fopp (fppf p)).
  Proof. intros t i j es p A B. unfold out_cell64. cbv zeta. fold es p. unfold poisson_obs_mid_z64, z_of_p64. fold p. rewrite A, B. reflexivity. Qed.
  (** outside the row and the column of the cell there is nothing: NaN *)
  Theorem C113_empty_rest : forall t i j, nan_lib fpsf fppf flog fexpo -> counts t -> (i < z_nr t)%nat -> (j < z_nc t)%nat -> elsewhere (real_table t) i j = 0%R -> cell64 t i j = Ok (fnan, fnan).
  Proof.
    intros t i j (N1 & N2 & _ & _) NN Hi Hj HD. pose proof (tD t i j Hi Hj) as ED. rewrite HD in ED. apply eq_IZR in ED.
    assert (ES : estimate64 pow2 t i j = (fnan, fnan)) by (unfold estimate64; cbv zeta; rewrite ED; reflexivity).
    assert (P : midp (z_el t i j) fnan fnan = fnan).
    { unfold poisson_obs_mid_p64, mid_p64. unfold poisson_obs_p64 at 3. pose proof (NN i j) as NE. replace (z_el t i j + 1 =? 0)%Z with false by (symmetry; apply Z.eqb_neq; lia). change (flt fzero fnan) with false. cbv iota. rewrite N1. autorewrite with nanf. reflexivity. }
    unfold out_cell64. rewrite ES. cbv zeta. cbn [fst snd]. unfold poisson_obs_mid_z64, z_of_p64. rewrite P. change (feqb fnan fzero) with false. change (feqb fnan fone) with false. cbv beta iota delta [orb rbind]. rewrite N2. reflexivity.
  Qed.
End Cells.
Print Assumptions C113_cells.
Print Assumptions C113_errors.
Print Assumptions C113_plain_cell.
Print Assumptions C113_empty_rest.

(** * exchanging and reordering rows and columns *)
Lemma fplus_comm : forall u v, fplus u v = fplus v u.
Proof.
  intros u v. destruct (ffin u) eqn:FU, (ffin v) eqn:FV.
  - pose proof (Bplus_correct 53 1024 _ _ mode_NE u v FU FV) as A. pose proof (Bplus_correct 53 1024 _ _ mode_NE v u FV FU) as B. rewrite (Rplus_comm (B2R v) (B2R u)) in B. change (Bplus mode_NE u v) with (fplus u v) in A. change (Bplus mode_NE v u) with (fplus v u) in B.
    destruct (Rlt_bool _ _).
    + destruct A as (A1 & A2 & A3), B as (B1 & B2 & B3). apply B2R_Bsign_inj; [exact A2|exact B2|congruence|]. rewrite A3, B3. destruct (Rcompare _ _); [|reflexivity|reflexivity]. cbv iota. apply andb_comm.
    + destruct A as (A1 & A2), B as (B1 & B2). apply B2SF_inj. rewrite A1, B1. congruence.
  - destruct u as [s|s| |s m e q], v as [s'|s'| |s' m' e' q']; try discriminate FU; try discriminate FV; reflexivity.
  - destruct u as [s|s| |s m e q], v as [s'|s'| |s' m' e' q']; try discriminate FU; try discriminate FV; reflexivity.
  - destruct u as [[|]|[|]| |s m e q], v as [[|]|[|]| |s' m' e' q']; try discriminate FU; try discriminate FV; reflexivity.
Qed.
Lemma all_transp : forall t, z_all (ztransp t) = z_all t.
Proof. intros t. apply eq_IZR. rewrite !z_all_R. unfold matsum, rowsum, real_table, ztransp. cbn [nr nc el z_nr z_nc z_el]. apply lsum_swap. Qed.
Lemma estimate_transp : forall p2 t i j, estimate64 p2 (ztransp t) j i = estimate64 p2 t i j.
Proof.
  intros p2 t i j. unfold estimate64. rewrite all_transp. change (z_el (ztransp t) j i) with (z_el t i j). change (z_row (ztransp t) j) with (z_col t j). change (z_col (ztransp t) i) with (z_row t i). cbv zeta.
  set (A := z_el t i j). set (B := (z_row t i - A)%Z). set (C := (z_col t j - A)%Z). replace (z_all t - C - B - A)%Z with (z_all t - B - C - A)%Z by lia. rewrite (Z.mul_comm C B).
  match goal with |- (if ?c then (?e, fsqrt (fplus (fplus ?x ?y) ?w)) else _) = _ => rewrite (fplus_comm x y) end. reflexivity.
Qed.
Lemma perm_bound : forall I n i, Permutation I (seq 0 n) -> (i < n)%nat -> (nth i I 0 < n)%nat.
Proof. intros I n i P H. assert (In (nth i I 0%nat) (seq 0 n)) as X; [|apply in_seq in X; lia]. eapply Permutation_in; [exact P|]. apply nth_In. rewrite (Permutation_length P), seq_length. exact H. Qed.
Lemma perm_len : forall I n, Permutation I (seq 0 n) -> length I = n. Proof. intros I n P. rewrite (Permutation_length P). apply seq_length. Qed.
Lemma zsum_pick : forall (f : nat -> Z) I n, Permutation I (seq 0 n) -> zsum (fun i => f (nth i I 0%nat)) (length I) = zsum f n.
Proof. intros f I n P. apply eq_IZR. rewrite !zsum_R. rewrite (lsum_nth _ (fun k => IZR (f k)) I 0%nat). apply lsum_perm. exact P. Qed.
Lemma zsum_ext : forall (f g : nat -> Z) n, (forall i, f i = g i) -> zsum f n = zsum g n.
Proof. intros f g n H. unfold zsum. generalize (seq 0 n). intros l. induction l as [|a l IH]; cbn [fold_right]; [reflexivity|]. rewrite IH, H. reflexivity. Qed.
Lemma estimate_pick : forall p2 t I J i j, Permutation I (seq 0 (z_nr t)) -> Permutation J (seq 0 (z_nc t)) -> estimate64 p2 (zpick t I J) i j = estimate64 p2 t (nth i I 0%nat) (nth j J 0%nat).
Proof.
  intros p2 t I J i j PI_ PJ.
  assert (RW : forall k, z_row (zpick t I J) k = z_row t (nth k I 0%nat)) by (intros k; exact (zsum_pick (fun l => z_el t (nth k I 0%nat) l) J _ PJ)).
  assert (CL : z_col (zpick t I J) j = z_col t (nth j J 0%nat)) by exact (zsum_pick (fun l => z_el t l (nth j J 0%nat)) I _ PI_).
  assert (AL : z_all (zpick t I J) = z_all t). { unfold z_all. rewrite (zsum_ext _ _ _ RW). exact (zsum_pick (fun k => z_row t k) I _ PI_). }
  unfold estimate64. rewrite RW, CL, AL. reflexivity.
Qed.
Section Shape.
  Variable fbetainc : f64 -> f64 -> f64 -> f64.
  Variable fgammaln : f64 -> f64.
  Variables fpsf fplogsf : f64 -> f64 -> f64.
  Variables fppf flog fexpo pow2 : f64 -> f64.
  Notation cell64 := (out_cell64 fbetainc fgammaln fpsf fplogsf fppf flog fexpo pow2).
  Notation hist64 := (outlier_hist2d_64 fbetainc fgammaln fpsf fplogsf fppf flog fexpo pow2).
  Definition at64 (m : list (list (f64 * f64))) (i j : nat) : f64 * f64 := nth j (nth i m []) (fnan, fnan).
  Lemma moved : forall t t' (g h : nat -> nat -> nat), (forall i j, (i < z_nr t')%nat -> (j < z_nc t')%nat -> (g i j < z_nr t)%nat /\ (h i j < z_nc t)%nat /\ cell64 t' i j = cell64 t (g i j) (h i j)) ->
    forall m, hist64 t = Ok m -> exists m', hist64 t' = Ok m' /\ forall i j, (i < z_nr t')%nat -> (j < z_nc t')%nat -> at64 m' i j = at64 m (g i j) (h i j).
  Proof.
    intros t t' g h H m HM. destruct (C113_cells _ _ _ _ _ _ _ _ _ _ HM) as [_ C].
    destruct (hist_defined fbetainc fgammaln fpsf fplogsf fppf flog fexpo pow2 t') as (m' & HM'). { intros i j Hi Hj. destruct (H i j Hi Hj) as (G1 & G2 & E). eexists. rewrite E. exact (proj2 (C _ _ G1 G2)). }
    exists m'. split; [exact HM'|]. intros i j Hi Hj. destruct (C113_cells _ _ _ _ _ _ _ _ _ _ HM') as [_ C']. destruct (H i j Hi Hj) as (G1 & G2 & E). pose proof (proj2 (C' _ _ Hi Hj)) as A. rewrite E, (proj2 (C _ _ G1 G2)) in A. unfold at64. congruence.
  Qed.
  (** exchanging the two columns exchanges rows and columns of the matrix, bit for bit *)
  Theorem C113_transpose : forall t m, hist64 t = Ok m -> exists m', hist64 (ztransp t) = Ok m' /\ forall i j, (i < z_nr t)%nat -> (j < z_nc t)%nat -> at64 m' j i = at64 m i j.
  Proof.
    intros t m H. destruct (moved t (ztransp t) (fun j i => i) (fun j i => j)) with (m := m) as (m' & A & B); [|exact H|].
    - intros j i Hj Hi. cbn [ztransp z_nr z_nc] in *. split; [exact Hi|]. split; [exact Hj|]. unfold out_cell64. rewrite estimate_transp. reflexivity.
    - exists m'. split; [exact A|]. intros i j Hi Hj. exact (B j i Hj Hi).
  Qed.
  Theorem C113_permute : forall t I J m, Permutation I (seq 0 (z_nr t)) -> Permutation J (seq 0 (z_nc t)) -> hist64 t = Ok m ->
    exists m', hist64 (zpick t I J) = Ok m' /\ forall i j, (i < z_nr t)%nat -> (j < z_nc t)%nat -> at64 m' i j = at64 m (nth i I 0%nat) (nth j J 0%nat).
  Proof.
    intros t I J m PI_ PJ H. destruct (moved t (zpick t I J) (fun i j => nth i I 0%nat) (fun i j => nth j J 0%nat)) with (m := m) as (m' & A & B); [|exact H|].
    - intros i j Hi Hj. cbn [zpick z_nr z_nc] in *. rewrite (perm_len _ _ PI_) in Hi. rewrite (perm_len _ _ PJ) in Hj. split; [exact (perm_bound _ _ _ PI_ Hi)|]. split; [exact (perm_bound _ _ _ PJ Hj)|]. unfold out_cell64. rewrite estimate_pick by assumption. reflexivity.
    - exists m'. split; [exact A|]. intros i j Hi Hj. apply B; cbn [zpick z_nr z_nc]; [rewrite (perm_len _ _ PI_)|rewrite (perm_len _ _ PJ)]; assumption.
  Qed.
  (** and the same error is raised, or none *)
  Theorem C113_permute_error : forall t I J r, Permutation I (seq 0 (z_nr t)) -> Permutation J (seq 0 (z_nc t)) -> hist64 t = Raise r -> hist64 (zpick t I J) = Raise r /\ hist64 (ztransp t) = Raise r.
  Proof.
    intros t I J r PI_ PJ H. assert (HR := H). apply C113_errors in HR. destruct HR as [-> _].
    assert (X : exists i0 j0, (i0 < z_nr t)%nat /\ (j0 < z_nc t)%nat /\ cell64 t i0 j0 = Raise ValueError).
    { unfold outlier_hist2d_64 in H. apply PairMatProofs.mapM_raise in H. destruct H as (i & Hi & E). apply in_seq in Hi. apply PairMatProofs.mapM_raise in E. destruct E as (j & Hj & E). apply in_seq in Hj. exists i, j. split; [lia|]. split; [lia|exact E]. }
    destruct X as (i0 & j0 & Hi & Hj & E).
    assert (K : forall t' i j, (i < z_nr t')%nat -> (j < z_nc t')%nat -> cell64 t' i j = Raise ValueError -> hist64 t' = Raise ValueError).
    { intros t' i j A B D. destruct (hist64 t') as [m|r'] eqn:M; [|apply C113_errors in M; destruct M as [-> _]; reflexivity]. destruct (C113_cells _ _ _ _ _ _ _ _ _ _ M) as [_ C]. rewrite (proj2 (C i j A B)) in D. discriminate D. }
    split.
    - assert (IN : In i0 I) by (eapply Permutation_in; [apply Permutation_sym; exact PI_|apply in_seq; lia]). assert (JN : In j0 J) by (eapply Permutation_in; [apply Permutation_sym; exact PJ|apply in_seq; lia]).
      apply (In_nth _ _ 0%nat) in IN. apply (In_nth _ _ 0%nat) in JN. destruct IN as (i & Li & <-), JN as (j & Lj & <-). apply (K (zpick t I J) i j Li Lj). unfold out_cell64 in *. rewrite estimate_pick by assumption. exact E.
    - apply (K (ztransp t) j0 i0 Hj Hi). unfold out_cell64 in *. rewrite estimate_transp. exact E.
  Qed.
End Shape.
Print Assumptions C113_transpose.
Print Assumptions C113_permute.
Print Assumptions C113_permute_error.

(** * the arguments of the incomplete beta function, and two cells whose Z-value is NaN *)
Lemma err_pos : forall B C D, (0 <= B -> 0 <= C -> 0 < D -> 0 < B + C -> 0 < abcd_err B C D)%R.
Proof.
  intros B C D HB HC HD H. assert (PE : forall u, (1 <= poisson_err u)%R). { intros u. unfold poisson_err. destruct (Rle_dec 1 u) as [L|L]; [|lra]. rewrite <- sqrt_1. apply sqrt_le_1_alt. exact L. }
  unfold abcd_err. apply sqrt_lt_R0. pose proof (PE B) as P1. pose proof (PE C) as P2. pose proof (pow2_ge_0 (poisson_err D * abcd B C D / D)) as P3. pose proof (pow2_ge_0 (poisson_err B * C / D)) as P4. pose proof (pow2_ge_0 (poisson_err C * B / D)) as P5.
  destruct (Rle_lt_or_eq_dec 0 C HC) as [L|L].
  - assert (0 < (poisson_err B * C / D) ^ 2)%R by (apply pow_lt; apply Rdiv_lt_0_compat; [apply Rmult_lt_0_compat; lra|exact HD]). lra.
  - assert (0 < (poisson_err C * B / D) ^ 2)%R by (apply pow_lt; apply Rdiv_lt_0_compat; [apply Rmult_lt_0_compat; lra|exact HD]). lra.
Qed.
Lemma err_zero : forall D, (0 < D -> abcd_err 0 0 D = 0)%R.
Proof. intros D H. unfold abcd_err, abcd. replace (0 * 0 / D)%R with 0%R by (field; lra). rewrite !Rmult_0_r. replace (0 / D)%R with 0%R by (field; lra). replace (0 ^ 2 + 0 ^ 2 + 0 ^ 2)%R with 0%R by ring. apply sqrt_0. Qed.
Lemma within_zero : forall u e, within e u 0 -> u = 0%R. Proof. intros u e H. unfold within in H. rewrite Rmult_0_r, Rminus_0_r in H. destruct (Req_dec u 0) as [->|N]; [reflexivity|]. pose proof (Rabs_pos_lt u N). lra. Qed.
Section Values.
  Variable fbetainc : f64 -> f64 -> f64 -> f64.
  Variable fgammaln : f64 -> f64.
  Variables fpsf fplogsf : f64 -> f64 -> f64.
  Variables fppf flog fexpo pow2 : f64 -> f64.
  Notation cell64 := (out_cell64 fbetainc fgammaln fpsf fplogsf fppf flog fexpo pow2).
  Notation midp := (poisson_obs_mid_p64 fbetainc fpsf).
  (** with records in the row or the column of the cell and outside both: the mid-p-value is made of betainc at n and n+1, at arguments within 2^-46 of Linnemann's *)
  Theorem C113_beta_cell : forall t i j, pow2_ok pow2 -> counts t -> (i < z_nr t)%nat -> (j < z_nc t)%nat -> (z_all t <= 2 ^ 32)%Z ->
    let m := real_table t in let B := same_row m i j in let C := same_col m i j in let D := elsewhere m i j in (0 < D)%R -> (0 < B + C)%R ->
    let es := estimate64 pow2 t i j in let n := z_el t i j in
    exists b x, ffin b = true /\ (1 <= f2R b)%R /\ within (bpow radix2 (-46)) (f2R b) (lin_b (abcd B C D) (abcd_err B C D)) /\
      ffin x = true /\ (0 < f2R x <= 1)%R /\ within (bpow radix2 (-46)) (f2R x) (lin_x (abcd B C D) (abcd_err B C D)) /\
      midp n (fst es) (snd es) = mid_p64 (if (n =? 0)%Z then fone else fbetainc (ofZ n) b x) (fbetainc (ofZ (n + 1)) b x).
  Proof.
    intros t i j P NN Hi Hj TOT m B C D HD HBC es n.
    assert (EB : (0 <= B)%R) by (apply lsum_nonneg; intros; apply (IZR_le 0); apply NN). assert (EC : (0 <= C)%R) by (apply lsum_nonneg; intros; apply (IZR_le 0); apply NN).
    pose proof (err_pos B C D EB EC HD HBC) as HS. pose proof (C93_linnemann pow2 t i j P NN Hi Hj TOT HD HS) as L. pose proof (proj1 (C93_expectations pow2 t i j P NN Hi Hj TOT) HD) as (_ & _ & FS & WS). cbv zeta in L. fold m B C D es in L, FS, WS.
    exists (fst (linnemann64 (fst es) (snd es))), (snd (linnemann64 (fst es) (snd es))). destruct L as (L1 & L2 & L3 & L4 & L5 & L6). split; [exact L1|]. split; [exact L2|]. split; [exact L3|]. split; [exact L4|]. split; [exact L5|]. split; [exact L6|].
    assert (SP : flt fzero (snd es) = true).
    { apply (proj2 (flt_spec fzero (snd es) eq_refl FS)). change (f2R fzero) with 0%R. unfold within in WS. apply Rabs_le_inv in WS. assert (K : (bpow radix2 (-48) <= bpow radix2 (-1))%R) by (apply Flocq.Core.Raux.bpow_le; lia). change (bpow radix2 (-1)) with (/ 2)%R in K.
      pose proof (Rmult_le_compat_r _ _ _ (Rlt_le _ _ HS) K) as K2. lra. }
    unfold poisson_obs_mid_p64, poisson_obs_p64. rewrite SP. replace (n + 1 =? 0)%Z with false by (symmetry; apply Z.eqb_neq; pose proof (NN i j); unfold n; lia). destruct (linnemann64 (fst es) (snd es)) as [b x]. reflexivity.
  Qed.
  (** nothing else in the row and the column of the cell: expectation and uncertainty are 0, the p-value of one or more records is exactly 0, but the Z-value is NaN, not +inf *)
  Theorem C113_isolated_is_nan : forall t i j, pow2_ok pow2 -> nan_lib fpsf fppf flog fexpo -> (forall k mu, ffin mu = true -> f2R mu = 0%R -> fpsf k mu = fzero /\ fplogsf k mu = fminf) ->
    counts t -> (i < z_nr t)%nat -> (j < z_nc t)%nat -> (z_all t <= 2 ^ 32)%Z -> let m := real_table t in same_row m i j = 0%R -> same_col m i j = 0%R -> (0 < elsewhere m i j)%R -> (1 <= z_el t i j)%Z ->
    let es := estimate64 pow2 t i j in f2R (fst es) = 0%R /\ f2R (snd es) = 0%R /\ cell64 t i j = Ok (fzero, fnan).
  Proof.
    intros t i j P (_ & N2 & N3 & N4) PS NN Hi Hj TOT m HB HC HD HN es. pose proof (proj1 (C93_expectations pow2 t i j P NN Hi Hj TOT) HD) as (FE & WE & FS & WS). fold m es in FE, WE, FS, WS. rewrite HB, HC in WE, WS. rewrite (err_zero _ HD) in WS. unfold abcd in WE. replace (0 * 0 / elsewhere m i j)%R with 0%R in WE by (field; lra).
    apply within_zero in WE. apply within_zero in WS. split; [exact WE|]. split; [exact WS|].
    assert (SP : flt fzero (snd es) = false). { destruct (flt fzero (snd es)) eqn:F; [|reflexivity]. apply (proj1 (flt_spec fzero (snd es) eq_refl FS)) in F. rewrite WS in F. change (f2R fzero) with 0%R in F. lra. }
    unfold out_cell64. cbv zeta. fold es. set (n := z_el t i j) in *.
    assert (MP : midp n (fst es) (snd es) = fzero).
    { unfold poisson_obs_mid_p64, poisson_obs_p64. rewrite SP. replace (n =? 0)%Z with false by (symmetry; apply Z.eqb_neq; lia). replace (n + 1 =? 0)%Z with false by (symmetry; apply Z.eqb_neq; lia). rewrite !(fun k => proj1 (PS k _ FE WE)). reflexivity. }
    unfold poisson_obs_mid_z64, z_of_p64. rewrite MP. change (feqb fzero fzero) with true. cbv beta iota delta [orb]. unfold log_poisson_obs_mid_p64, log_poisson_obs_p64. rewrite SP. replace (n =? 0)%Z with false by (symmetry; apply Z.eqb_neq; lia). replace (n + 1 =? 0)%Z with false by (symmetry; apply Z.eqb_neq; lia).
    cbn [rbind fst snd]. rewrite !(fun k => proj2 (PS k _ FE WE)). unfold log_mean64. change (fminus fminf fminf) with fnan. rewrite N4. autorewrite with nanf. rewrite N3. autorewrite with nanf. unfold z_from_logp64. change (feqb fnan fminf) with false. cbv iota zeta. rewrite N4. change (feqb fnan fzero) with false. cbv iota. rewrite N2. reflexivity.
  Qed.
  (** where Linnemann's x rounds to 1, the p-value is 1 and the Z-value NaN *)
  Theorem C113_x_is_one_nan : forall t i j, nan_lib fpsf fppf flog fexpo -> (forall a b x, feqb x fone = true -> fbetainc a b x = fone) -> (1 <= z_el t i j)%Z ->
    let es := estimate64 pow2 t i j in flt fzero (snd es) = true -> feqb (snd (linnemann64 (fst es) (snd es))) fone = true -> cell64 t i j = Ok (fone, fnan).
  Proof.
    intros t i j (_ & N2 & N3 & N4) BI HN es SP X1. unfold out_cell64. cbv zeta. fold es. set (n := z_el t i j) in *. destruct (linnemann64 (fst es) (snd es)) as [b x] eqn:LE. cbn [snd] in X1.
    assert (MP : midp n (fst es) (snd es) = fone).
    { unfold poisson_obs_mid_p64, poisson_obs_p64. rewrite SP, LE. replace (n =? 0)%Z with false by (symmetry; apply Z.eqb_neq; lia). replace (n + 1 =? 0)%Z with false by (symmetry; apply Z.eqb_neq; lia). rewrite (BI (ofZ n) b x X1), (BI (ofZ (n + 1)) b x X1). apply B2SF_inj. vm_compute. reflexivity. }
    unfold poisson_obs_mid_z64, z_of_p64. rewrite MP. change (feqb fone fzero) with false. change (feqb fone fone) with true. cbv beta iota delta [orb]. unfold log_poisson_obs_mid_p64, log_poisson_obs_p64. rewrite SP, LE. replace (n =? 0)%Z with false by (symmetry; apply Z.eqb_neq; lia). replace (n + 1 =? 0)%Z with false by (symmetry; apply Z.eqb_neq; lia).
    assert (X0 : feqb x fzero = false). { destruct x as [s|s| |s q e pr]; try reflexivity; destruct s; try reflexivity; vm_compute in X1; discriminate X1. }
    unfold log_incompbeta64. rewrite X0, X1. cbn [rbind fst snd]. unfold log_mean64. change (fminus fminf fminf) with fnan. rewrite N4. autorewrite with nanf. rewrite N3. autorewrite with nanf. unfold z_from_logp64. change (feqb fnan fminf) with false. cbv iota zeta. rewrite N4. change (feqb fnan fzero) with false. cbv iota. rewrite N2. autorewrite with nanf. reflexivity.
  Qed.
  (** p = 0 or p = 1: log((p+p1)/2) = log(1/2) + log p + log(1 + p1/p), and likewise for 1-p *)
  Theorem C113_extreme_cell : forall t i j, let es := estimate64 pow2 t i j in let n := z_el t i j in let p := midp n (fst es) (snd es) in
    let LP := fun k => log_poisson_obs_p64 fgammaln fpsf fplogsf flog fexpo k (fst es) (snd es) in forall lp lq lp1 lq1, LP n = Ok (lp, lq) -> LP (n + 1)%Z = Ok (lp1, lq1) ->
    (feqb p fzero = true -> cell64 t i j = Ok (p, z_from_logp64 flog fexpo fppf (fplus (fplus (flog fhalf) lp) (flog (fplus fone (fexpo (fminus lp1 lp))))) false)) /\
    (feqb p fone = true -> cell64 t i j = Ok (p, z_from_logp64 flog fexpo fppf (fplus (fplus (flog fhalf) lq1) (flog (fplus fone (fexpo (fminus lq lq1))))) true)).
  Proof.
    intros t i j es n p LP lp lq lp1 lq1 H H1. unfold out_cell64. cbv zeta. fold es n p. unfold poisson_obs_mid_z64, z_of_p64. fold p. unfold log_poisson_obs_mid_p64. unfold LP in H, H1. rewrite H, H1. cbn [rbind fst snd].
    split; intros P.
    - rewrite P. reflexivity.
    - assert (Z : feqb p fzero = false). { revert P. generalize p. clear. intros x X1. destruct x as [s|s| |s q e pr]; try reflexivity; destruct s; try reflexivity; vm_compute in X1; discriminate X1. } rewrite P, Z. reflexivity.
  Qed.
  (** the logarithms of the p-values: no record, an uncertain expectation, an exact one *)
  Theorem C113_log_p : forall n e s, let LP := log_poisson_obs_p64 fgammaln fpsf fplogsf flog fexpo n e s in let P := poisson_obs_p64 fbetainc fpsf n e s in
    (n = 0%Z -> P = fone /\ LP = Ok (fzero, fminf)) /\
    (n <> 0%Z -> flt fzero s = true -> let bx := linnemann64 e s in P = fbetainc (ofZ n) (fst bx) (snd bx) /\ LP = log_incompbeta64 fgammaln flog fexpo (ofZ n) (fst bx) (snd bx)) /\
    (n <> 0%Z -> flt fzero s = false -> P = fpsf (ofZ (n - 1)) e /\ LP = Ok (fplogsf (ofZ (n - 1)) e, flog (fminus fone (fpsf (ofZ (n - 1)) e)))).
  Proof.
    intros n e s LP P. unfold LP, P, log_poisson_obs_p64, poisson_obs_p64. split; [intros ->; split; reflexivity|]. split; intros N S0; replace (n =? 0)%Z with false by (symmetry; apply Z.eqb_neq; exact N); rewrite S0; [|split; reflexivity]. cbv zeta. destruct (linnemann64 e s) as [b x]. split; reflexivity.
  Qed.
  (** poisson_obs_z: without the mid-p correction *)
  Theorem C113_z : forall n e s, let P := poisson_obs_p64 fbetainc fpsf n e s in let Z := poisson_obs_z64 fbetainc fgammaln fpsf fplogsf fppf flog fexpo n e s in
    (feqb P fzero = false -> feqb P fone = false -> Z = Ok (fopp (fppf P))) /\
    forall lp lq, log_poisson_obs_p64 fgammaln fpsf fplogsf flog fexpo n e s = Ok (lp, lq) ->
      (feqb P fzero = true -> Z = Ok (z_from_logp64 flog fexpo fppf lp false)) /\ (feqb P fone = true -> Z = Ok (z_from_logp64 flog fexpo fppf lq true)).
  Proof.
    intros n e s P Z. unfold Z, poisson_obs_z64, z_of_p64. fold P. split; [intros -> ->; reflexivity|]. intros lp lq ->. cbn [rbind fst snd]. split; intros H.
    - rewrite H. reflexivity.
    - assert (Z0 : feqb P fzero = false). { revert H. generalize P. clear. intros x X1. destruct x as [s|s| |s q e pr]; try reflexivity; destruct s; try reflexivity; vm_compute in X1; discriminate X1. } rewrite H, Z0. reflexivity.
  Qed.
End Values.
Print Assumptions C113_beta_cell.
Print Assumptions C113_isolated_is_nan.
Print Assumptions C113_x_is_one_nan.

(** * frames *)
Lemma zsum_ext_in : forall (f g : nat -> Z) n, (forall i, (i < n)%nat -> f i = g i) -> zsum f n = zsum g n.
Proof. intros f g n H. apply eq_IZR. rewrite !zsum_R. apply lsum_ext. intros a Ha. apply in_seq in Ha. rewrite H by lia. reflexivity. Qed.
Lemma estimate_ext : forall p2 t t' i j, z_nr t' = z_nr t -> z_nc t' = z_nc t -> (forall k l, (k < z_nr t)%nat -> (l < z_nc t)%nat -> z_el t' k l = z_el t k l) -> (i < z_nr t)%nat -> (j < z_nc t)%nat -> estimate64 p2 t' i j = estimate64 p2 t i j.
Proof.
  intros p2 t t' i j NR NC E Hi Hj.
  assert (RW : forall k, (k < z_nr t)%nat -> z_row t' k = z_row t k) by (intros k Hk; unfold z_row; rewrite NC; apply zsum_ext_in; intros l Hl; apply E; assumption).
  assert (CL : z_col t' j = z_col t j) by (unfold z_col; rewrite NR; apply zsum_ext_in; intros k Hk; apply E; assumption).
  assert (AL : z_all t' = z_all t) by (unfold z_all; rewrite NR; apply zsum_ext_in; exact RW).
  unfold estimate64. rewrite (E i j Hi Hj), (RW i Hi), CL, AL. reflexivity.
Qed.
Section Frames.
  Variable fbetainc : f64 -> f64 -> f64 -> f64.
  Variable fgammaln : f64 -> f64.
  Variables fpsf fplogsf : f64 -> f64 -> f64.
  Variables fppf flog fexpo pow2 : f64 -> f64.
  Variable fmt : Z -> f64 * f64 -> string.
  Notation cell64 := (out_cell64 fbetainc fgammaln fpsf fplogsf fppf flog fexpo pow2).
  Notation hist64 := (outlier_hist2d_64 fbetainc fgammaln fpsf fplogsf fppf flog fexpo pow2).
  Notation rebinned := (outlier_rebinned_64 fbetainc fgammaln fpsf fplogsf fppf flog fexpo pow2 fmt).
  Lemma rebinned_eq : forall c0 x c1 y dict nd d u o, let x' := map (clean1 d u o) (c_cells x) in let y' := map (clean1 d u o) (c_cells y) in let h := crosstab (combine x' y') in
    rebinned [(c0, x); (c1, y)] dict nd d u o =
      if is01 (length (h_rows h)) || is01 (length (h_cols h)) then Ok ONaN64
      else let* rows := relabel fmt nd dict c0 x' (h_rows h) in let* cols := relabel fmt nd dict c1 y' (h_cols h) in let* pz := hist64 (ztab_of h) in Ok (OMat64 rows cols (map (map snd) pz)).
  Proof. reflexivity. Qed.
  Lemma relabel_len : forall nd dict c cells axis l, relabel fmt nd dict c cells axis = Ok l -> length l = length axis.
  Proof. intros nd dict c cells axis l H. unfold relabel in H. destruct (assoc c dict); [|congruence]. cbv zeta in H. destruct (Nat.eqb_spec (length (axis_labels fmt nd l0 cells axis)) (length axis)); [congruence|discriminate H]. Qed.
  Lemma relabel_err : forall nd dict c cells axis e, relabel fmt nd dict c cells axis = Raise e -> e = ValueError.
  Proof. intros nd dict c cells axis e H. unfold relabel in H. destruct (assoc c dict); [|discriminate H]. cbv zeta in H. destruct (Nat.eqb _ _); congruence. Qed.
  (** the result for two columns: NaN where a column has fewer than two categories, else one Z-value per cell of the contingency table *)
  Theorem C113_rebinned : forall c0 x c1 y dict nd d u o r, rebinned [(c0, x); (c1, y)] dict nd d u o = Ok r -> exists h, fst (hist2d_from_rebinned_df [(c0, x); (c1, y)] d u o) = Ok h /\
    match r with
    | ONaN64 => (length (h_rows h) <= 1)%nat \/ (length (h_cols h) <= 1)%nat
    | OMat64 rows cols z => (2 <= length (h_rows h))%nat /\ (2 <= length (h_cols h))%nat /\ length rows = length (h_rows h) /\ length cols = length (h_cols h) /\ length z = length rows /\
        forall i j, (i < length rows)%nat -> (j < length cols)%nat -> length (nth i z []) = length cols /\ exists p, cell64 (ztab_of h) i j = Ok (p, nth j (nth i z []) fnan)
    end.
  Proof.
    intros c0 x c1 y dict nd d u o r H. rewrite rebinned_eq in H. cbv zeta in H. eexists. split; [reflexivity|]. cbn [clean map fst snd c_cells]. set (h := crosstab _) in *. destruct (is01 _ || is01 _) eqn:I.
    - injection H as <-. unfold is01 in I. apply orb_true_iff in I. destruct I as [I|I]; apply orb_true_iff in I; destruct I as [I|I]; apply Nat.eqb_eq in I; lia.
    - destruct (relabel fmt nd dict c0 _ _) as [rows|] eqn:A; [|discriminate H]. destruct (relabel fmt nd dict c1 _ _) as [cols|] eqn:B; [|discriminate H]. cbn [rbind] in H. destruct (hist64 (ztab_of h)) as [pz|] eqn:M; [|discriminate H]. cbn [rbind] in H. injection H as <-.
      apply relabel_len in A. apply relabel_len in B. unfold is01 in I. apply orb_false_iff in I. destruct I as [I1 I2]. apply orb_false_iff in I1. apply orb_false_iff in I2. destruct I1 as [I1 I1'], I2 as [I2 I2']. apply Nat.eqb_neq in I1, I1', I2, I2'.
      destruct (C113_cells _ _ _ _ _ _ _ _ _ _ M) as [L C]. cbn [ztab_of z_nr z_nc] in L, C. split; [lia|]. split; [lia|]. split; [exact A|]. split; [exact B|]. split; [rewrite map_length; congruence|]. intros i j Hi Hj. rewrite A in Hi. rewrite B in Hj. destruct (C i j Hi Hj) as [C1 C2].
      assert (RW : nth i (map (map snd) pz) [] = map snd (nth i pz [])) by exact (map_nth (map (@snd f64 f64)) pz [] i). rewrite RW. split; [rewrite map_length; congruence|]. exists (fst (nth j (nth i pz []) (fnan, fnan))).
      rewrite C2. assert (RW2 : nth j (map snd (nth i pz [])) fnan = snd (nth j (nth i pz []) (fnan, fnan))) by exact (map_nth (@snd f64 f64) (nth i pz []) (fnan, fnan) j). rewrite RW2. destruct (nth j (nth i pz []) (fnan, fnan)); reflexivity.
  Qed.
  (** the only error is ValueError *)
  Theorem C113_rebinned_errors : forall f dict nd d u o e, rebinned f dict nd d u o = Raise e -> e = ValueError.
  Proof.
    intros f dict nd d u o e H. destruct f as [|[c0 x] [|[c1 y] [|z f]]]; try (cbn in H; congruence). rewrite rebinned_eq in H. cbv zeta in H. destruct (is01 _ || is01 _); [discriminate H|].
    destruct (relabel fmt nd dict c0 _ _) as [rows|e'] eqn:A; [|cbn [rbind] in H; apply relabel_err in A; congruence]. destruct (relabel fmt nd dict c1 _ _) as [cols|e'] eqn:B; [|cbn [rbind] in H; apply relabel_err in B; congruence]. cbn [rbind] in H.
    destruct (hist64 _) as [pz|e'] eqn:M; [discriminate H|]. apply C113_errors in M. cbn [rbind] in H. destruct M as [-> _]. congruence.
  Qed.
  (** the order of the records does not matter *)
  Theorem C113_record_order : forall f f' dict nd d u o, same_records f f' -> rebinned f' dict nd d u o = rebinned f dict nd d u o.
  Proof.
    intros f f' dict nd d u o (n & l & RC0 & P & ->). destruct f as [|[c0 x] [|[c1 y] [|z f]]]; try reflexivity. cbn [reorder map fst snd]. rewrite !rebinned_eq. cbv zeta.
    pose proof (hist_reorder n l P d u o _ RC0) as H. unfold hist2d_from_rebinned_df in H. rewrite (clean_reorder n l P) in H by exact RC0. pose proof (clean_reorder n l P d u o _ RC0) as CR. pose proof (rect_clean n d u o _ RC0) as RC.
    cbn [clean reorder map fst snd c_num c_cells] in *. injection CR as CX CY.
    pose proof (RC _ (or_introl eq_refl)) as LX. pose proof (RC _ (or_intror (or_introl eq_refl))) as LY. cbn [snd c_cells] in LX, LY.
    change (c_cells {| c_num := c_num x; c_cells := map (fun i => nth i (c_cells x) CNaN) l |}) with (map (fun i => nth i (c_cells x) CNaN) l).
    change (c_cells {| c_num := c_num y; c_cells := map (fun i => nth i (c_cells y) CNaN) l |}) with (map (fun i => nth i (c_cells y) CNaN) l).
    unfold rcol, pick in *. cbn [c_cells c_num] in *. rewrite CX, CY.
    match type of H with (Ok ?a) = (Ok ?b) => assert (HE : a = b) by congruence end. rewrite HE.
    pose proof (fun c axis => axis_reorder n l P fmt nd dict c _ axis LX) as RX. pose proof (fun c axis => axis_reorder n l P fmt nd dict c _ axis LY) as RY. unfold pick in RX, RY. rewrite RX, RY. reflexivity.
  Qed.

  Lemma hist_transposed : forall h h', is_transpose h h' ->
    (forall m, hist64 (ztab_of h) = Ok m -> exists m', hist64 (ztab_of h') = Ok m' /\ forall i j, (i < length (h_rows h))%nat -> (j < length (h_cols h))%nat -> at64 m' j i = at64 m i j) /\
    (forall e, hist64 (ztab_of h) = Raise e -> hist64 (ztab_of h') = Raise e).
  Proof.
    intros h h' (T1 & T2 & T3).
    assert (CE : forall i j, (i < length (h_rows h))%nat -> (j < length (h_cols h))%nat -> cell64 (ztab_of h') j i = cell64 (ztab_of h) i j).
    { intros i j Hi Hj. unfold out_cell64. assert (EL : z_el (ztab_of h') j i = z_el (ztab_of h) i j) by (cbn [ztab_of z_el]; f_equal; exact (T3 i j Hi Hj)). rewrite EL.
      rewrite (estimate_ext pow2 (ztransp (ztab_of h)) (ztab_of h') j i); [rewrite estimate_transp; reflexivity|cbn [ztransp ztab_of z_nr z_nc]; congruence|cbn [ztransp ztab_of z_nr z_nc]; congruence| |exact Hj|exact Hi].
      intros k l Hk Hl. cbn [ztransp ztab_of z_nr z_nc z_el] in *. f_equal. exact (T3 l k Hl Hk). }
    split.
    - intros m H. destruct (moved fbetainc fgammaln fpsf fplogsf fppf flog fexpo pow2 (ztab_of h) (ztab_of h') (fun j i => i) (fun j i => j)) with (m := m) as (m' & A & B); [|exact H|].
      + intros j i Hj Hi. cbn [ztab_of z_nr z_nc] in *. rewrite T1 in Hj. rewrite T2 in Hi. split; [exact Hi|]. split; [exact Hj|]. exact (CE i j Hi Hj).
      + exists m'. split; [exact A|]. intros i j Hi Hj. apply (B j i); cbn [ztab_of z_nr z_nc]; [rewrite T1; exact Hj|rewrite T2; exact Hi].
    - intros e H. destruct (hist64 (ztab_of h')) as [m'|e'] eqn:M; [|apply C113_errors in M; apply C113_errors in H; destruct M as [-> _], H as [-> _]; reflexivity].
      exfalso. destruct (C113_cells _ _ _ _ _ _ _ _ _ _ M) as [_ C]. cbn [ztab_of z_nr z_nc] in C. rewrite T1, T2 in C. destruct (hist_defined fbetainc fgammaln fpsf fplogsf fppf flog fexpo pow2 (ztab_of h)) as (m & X); [|congruence].
      intros i j Hi Hj. cbn [ztab_of z_nr z_nc] in Hi, Hj. eexists. rewrite <- (CE i j Hi Hj). exact (proj2 (C j i Hj Hi)).
  Qed.
  (** exchanging the two columns exchanges the index and the columns of the result, bit for bit *)
  Theorem C113_column_order : forall c0 x c1 y dict nd d u o,
    match rebinned [(c0, x); (c1, y)] dict nd d u o with
    | Ok (OMat64 rows cols z) => exists z', rebinned [(c1, y); (c0, x)] dict nd d u o = Ok (OMat64 cols rows z') /\ forall i j, (i < length rows)%nat -> (j < length cols)%nat -> nth i (nth j z' []) fnan = nth j (nth i z []) fnan
    | Ok ONaN64 => rebinned [(c1, y); (c0, x)] dict nd d u o = Ok ONaN64
    | Raise e => rebinned [(c1, y); (c0, x)] dict nd d u o = Raise e
    end.
  Proof.
    intros c0 x c1 y dict nd d u o. rewrite !rebinned_eq. cbv zeta. set (x' := map _ (c_cells x)). set (y' := map _ (c_cells y)). set (h := crosstab (combine x' y')). set (h' := crosstab (combine y' x')).
    assert (T : is_transpose h h') by (unfold h', h; rewrite (combine_swap _ _ x' y'); apply crosstab_swap). pose proof T as (T1 & T2 & T3). rewrite T1, T2. rewrite (orb_comm (is01 (length (h_cols h)))). destruct (is01 _ || is01 _); [reflexivity|].
    destruct (relabel fmt nd dict c0 x' (h_rows h)) as [rows|e] eqn:A; cbn [rbind].
    - destruct (relabel fmt nd dict c1 y' (h_cols h)) as [cols|e] eqn:B; cbn [rbind]; [|reflexivity]. destruct (hist_transposed h h' T) as [TA TB]. destruct (hist64 (ztab_of h)) as [pz|e] eqn:M; cbn [rbind]; [|rewrite (TB e eq_refl); reflexivity].
      destruct (TA pz eq_refl) as (pz' & -> & E). cbn [rbind]. eexists. split; [reflexivity|]. intros i j Hi Hj. rewrite (relabel_len _ _ _ _ _ _ A) in Hi. rewrite (relabel_len _ _ _ _ _ _ B) in Hj. pose proof (E i j Hi Hj) as Q. unfold at64 in Q.
      assert (R1 : forall q k, nth k (map (map snd) q) [] = map snd (nth k q [])) by (intros q k; exact (map_nth (map (@snd f64 f64)) q [] k)). assert (R2 : forall q k, nth k (map snd q) fnan = snd (nth k q (fnan, fnan))) by (intros q k; exact (map_nth (@snd f64 f64) q (fnan, fnan) k)).
      rewrite !R1, !R2, Q. reflexivity.
    - apply relabel_err in A. subst e. destruct (relabel fmt nd dict c1 y' (h_cols h)) as [cols|e] eqn:B; cbn [rbind]; [reflexivity|apply relabel_err in B; subst e; reflexivity].
  Qed.
  Variable npq : list f64 -> Z -> list f64.
  (** outlier_significance_matrix: the order of the records does not matter, and after the binning only ValueError is raised *)
  Theorem C113_matrix_record_order : forall f f' ic nd bins q d u o, order_free npq -> same_records f f' ->
    outlier_matrix_64 fbetainc fgammaln fpsf fplogsf fppf flog fexpo pow2 fmt npq f' ic nd bins q d u o = outlier_matrix_64 fbetainc fgammaln fpsf fplogsf fppf flog fexpo pow2 fmt npq f ic nd bins q d u o.
  Proof.
    intros f f' ic nd bins q d u o OF (n & l & RC & P & ->). unfold outlier_matrix_64. replace (length (reorder l f)) with (length f) by (symmetry; apply map_length). destruct (negb _); [reflexivity|].
    rewrite guess_reorder. set (ic0 := match ic with Some i => i | None => guess_interval_cols f end). rewrite (dq_reorder n l P) by exact RC. pose proof (rect_dq n f ic0 d RC) as R'. destruct (dq_check_nunique_values f ic0 d) as [g ic']. cbn [fst snd] in *.
    rewrite (bin_data_reorder npq OF n l P) by exact R'. destruct (bin_data npq g ic' bins q) as [[b dict]|] eqn:B; [|reflexivity]. cbn [rmap rbind fst snd]. pose proof (bin_data_rect _ _ _ _ _ _ _ _ R' B) as RB.
    rewrite (C113_record_order b (reorder l b)); [reflexivity|]. exists n, l. auto.
  Qed.
  Theorem C113_matrix : forall f ic nd bins q d u o r, outlier_matrix_64 fbetainc fgammaln fpsf fplogsf fppf flog fexpo pow2 fmt npq f ic nd bins q d u o = r ->
    match r with
    | Ok (m, dict) => length f = 2%nat /\ exists b, (let dq := dq_check_nunique_values f (match ic with Some l => l | None => guess_interval_cols f end) d in bin_data npq (fst dq) (snd dq) bins q) = Ok (b, dict) /\ rebinned b dict nd d u o = Ok m
    | Raise e => (let dq := dq_check_nunique_values f (match ic with Some l => l | None => guess_interval_cols f end) d in bin_data npq (fst dq) (snd dq) bins q) = Raise e \/ e = ValueError
    end.
  Proof.
    intros f ic nd bins q d u o r <-. unfold outlier_matrix_64. destruct (Nat.eqb_spec (length f) 2) as [L|L]; cbn [negb]; [|right; reflexivity]. destruct (dq_check_nunique_values f _ d) as [g ic'] eqn:DQ. cbv zeta. cbn [fst snd].
    destruct (bin_data npq g ic' bins q) as [[b dict]|e] eqn:B; cbn [rbind fst snd]; [|left; reflexivity]. destruct (rebinned b dict nd d u o) as [m|e] eqn:R; cbn [rbind]; [|right; exact (C113_rebinned_errors _ _ _ _ _ _ _ R)]. split; [exact L|]. exists b. auto.
  Qed.
End Frames.
Print Assumptions C113_rebinned.
Print Assumptions C113_rebinned_errors.
Print Assumptions C113_record_order.
Print Assumptions C113_column_order.
Print Assumptions C113_matrix_record_order.
Print Assumptions C113_matrix.

(** a 2x2 table whose total is below 2^32, with five records in a cell where 1.8e16 +- 1.8e16 are expected: the p-value is 1 and the Z-value NaN *)
Theorem C113_z_is_nan_refuted : exists t i j, counts t /\ (z_all t <= 2 ^ 32)%Z /\ (0 < elsewhere (real_table t) i j)%R /\
  forall fbetainc fgammaln fpsf fplogsf fppf flog fexpo, nan_lib fpsf fppf flog fexpo -> (forall a b x, feqb x fone = true -> fbetainc a b x = fone) ->
    out_cell64 fbetainc fgammaln fpsf fplogsf fppf flog fexpo (fun x => fmult x x) t i j = Ok (fone, fnan).
Proof.
  exists big_table, 0%nat, 0%nat. split; [intros [|i] [|j]; cbn; lia|]. split; [vm_compute; discriminate|]. split; [cbn; lra|]. intros fbetainc fgammaln fpsf fplogsf fppf flog fexpo N BI.
  apply C113_x_is_one_nan; [exact N|exact BI|vm_compute; discriminate|vm_compute; reflexivity|vm_compute; reflexivity].
Qed.
Print Assumptions C113_z_is_nan_refuted.
Definition diag_table : ztab := mkZtab 2 2 (fun i j => match i, j with O, O => 3 | S _, S _ => 4 | _, _ => 0 end)%Z.
Definition q25 : f64 := fdiv fone (ofZ 4).
Example C113_hypotheses_met :
  (match contfractbeta64 false (ofZ 2) (ofZ 3) q25 20 eps64 with Ok v => flt (ofZ 1) v | Raise _ => false end = true) /\
  (match contfractbeta64 false (ofZ 2) (ofZ 3) q25 1 eps64 with Ok v => false | Raise _ => true end = true) /\
  contfractbeta64 true (ofZ (-1)) (ofZ 3) q25 20 eps64 = Raise ZeroDivisionError /\
  (ffin eps64 = true /\ (0 <= f2R eps64 <= 1)%R) /\
  (counts diag_table /\ same_row (real_table diag_table) 0 0 = 0%R /\ same_col (real_table diag_table) 0 0 = 0%R /\ (0 < elsewhere (real_table diag_table) 0 0)%R) /\
  (counts small_table /\ (0 < elsewhere (real_table small_table) 0 0)%R /\ (0 < same_row (real_table small_table) 0 0 + same_col (real_table small_table) 0 0)%R) /\
  (exists fpsf fppf flog fexpo, nan_lib fpsf fppf flog fexpo /\ forall k mu, ffin mu = true -> f2R mu = 0%R -> fpsf k mu = fzero) /\ Permutation [1; 0]%nat (seq 0 (z_nr diag_table)).
Proof.
  split; [vm_compute; reflexivity|]. split; [vm_compute; reflexivity|]. split; [reflexivity|]. split; [split; [reflexivity|]|].
  { unfold eps64. split.
    - apply (proj1 (fle_spec fzero (flit 944473296573929 (-73)) eq_refl eq_refl)). vm_compute. reflexivity.
    - rewrite <- (proj1 fone_val). apply (proj1 (fle_spec (flit 944473296573929 (-73)) fone eq_refl eq_refl)). vm_compute. reflexivity. }
  split; [split; [intros [|i] [|j]; cbn; lia|cbn; lra]|]. split; [split; [intros [|i] [|j]; cbn; lia|cbn; lra]|]. split; [|apply perm_swap].
  exists (fun _ mu => if fisnan mu then fnan else fzero), (fun x => x), (fun x => x), (fun x => x). split; [split; [reflexivity|auto]|]. intros k mu F _. destruct mu; try discriminate F; reflexivity.
Qed.
