(** Proofs for BrentFModel: signs of binary64 operations, and the bracket invariant of brentq. *)
From Coq Require Import ZArith Reals Lia Lra Bool Psatz.
From Flocq Require Import Core BinarySingleNaN.
From Verif Require Import F64 Base LinspaceProofs BrentFModel.
Open Scope R_scope.

(** ** signs *)
Definition sg (s : bool) (x : f64) : Prop := fisnan x = false -> Bsign x = s.
Lemma overflow_sign : forall (x : f64) s, B2SF x = binary_overflow 53 1024 mode_NE s -> Bsign x = s /\ is_nan x = false.
Proof. intros [a|a| |a m e H] s; cbn; intros E; try discriminate; injection E as ->; auto. Qed.
Lemma mult_sign : forall x y, sg (xorb (Bsign x) (Bsign y)) (fmult x y).
Proof.
  intros x y N. pose proof (Bmult_correct 53 1024 _ _ mode_NE x y) as H. destruct (Rlt_bool _ _).
  - destruct H as (_ & _ & H). apply H. exact N.
  - apply overflow_sign in H. exact (proj1 H).
Qed.
Lemma div_sign : forall x y, sg (xorb (Bsign x) (Bsign y)) (fdiv x y).
Proof.
  intros x y N. destruct y as [t|t| |t m e E]; try (destruct x as [u|u| |u v w Z]; try discriminate; reflexivity).
  pose proof (Bdiv_correct 53 1024 _ _ mode_NE x (B754_finite t m e E)) as H. cbn [B2R] in H. specialize (H ltac:(apply F2R_neq_0; destruct t; discriminate)). destruct (Rlt_bool _ _).
  - destruct H as (_ & _ & H). apply H. exact N.
  - apply overflow_sign in H. exact (proj1 H).
Qed.
Lemma sg_mult : forall a b x y, sg a x -> sg b y -> sg (xorb a b) (fmult x y).
Proof. intros a b x y X Y N. rewrite (mult_sign x y N). assert (NX : fisnan x = false) by (destruct x; try reflexivity; discriminate). assert (NY : fisnan y = false) by (destruct y, x; try reflexivity; discriminate). rewrite (X NX), (Y NY). reflexivity. Qed.
Lemma sg_div : forall a b x y, sg a x -> sg b y -> sg (xorb a b) (fdiv x y).
Proof. intros a b x y X Y N. rewrite (div_sign x y N). assert (NX : fisnan x = false) by (destruct x; try reflexivity; discriminate). assert (NY : fisnan y = false) by (destruct y, x; try reflexivity; discriminate). rewrite (X NX), (Y NY). reflexivity. Qed.
Lemma sg_opp : forall a x, sg a x -> sg (negb a) (fopp x).
Proof. intros a x X N. assert (NX : fisnan x = false) by (destruct x; try reflexivity; discriminate). specialize (X NX). unfold fopp. rewrite Bsign_Bopp by exact NX. rewrite X. reflexivity. Qed.
Lemma sign_ge : forall x : f64, Bsign x = false -> 0 <= B2R x.
Proof. intros [s|s| |s m e E] H; cbn in *; subst; try lra. apply F2R_ge_0. cbn. lia. Qed.
Lemma sign_le : forall x : f64, Bsign x = true -> B2R x <= 0.
Proof. intros [s|s| |s m e E] H; cbn in *; subst; try lra. apply F2R_le_0. cbn. lia. Qed.
(** the difference of floats of opposite signs *)
Lemma sg_minus : forall a x y, sg a x -> sg (negb a) y -> sg a (fminus x y).
Proof.
  intros a x y X Y N. assert (NX : fisnan x = false) by (destruct x; try reflexivity; discriminate). assert (NY : fisnan y = false) by (destruct y, x; try reflexivity; discriminate). specialize (X NX). specialize (Y NY).
  destruct (is_finite x) eqn:FX; [destruct (is_finite y) eqn:FY|].
  - pose proof (Bminus_correct 53 1024 _ _ mode_NE x y FX FY) as H. destruct (Rlt_bool _ _).
    + destruct H as (_ & _ & H). unfold fminus. rewrite H. rewrite X, Y. rewrite negb_involutive. destruct (Rcompare_spec (B2R x - B2R y) 0) as [L|E|G]; [| |].
      * destruct a; [reflexivity|]. exfalso. assert (0 <= B2R x) by (apply sign_ge; first [congruence|assumption|rewrite Y; reflexivity]). assert (B2R y <= 0) by (apply sign_le; first [congruence|assumption|rewrite Y; reflexivity]). lra.
      * destruct a; reflexivity.
      * destruct a; [|reflexivity]. exfalso. assert (B2R x <= 0) by (apply sign_le; first [congruence|assumption|rewrite Y; reflexivity]). assert (0 <= B2R y) by (apply sign_ge; first [congruence|assumption|rewrite Y; reflexivity]). lra.
    + destruct H as (H & _). apply overflow_sign in H. unfold fminus. destruct H as (-> & _). exact X.
  - destruct y as [s|s| |s m e E]; try discriminate. cbn in Y. subst s. destruct x; try discriminate; cbn; rewrite ?negb_involutive; reflexivity.
  - destruct x as [s|s| |s m e E]; try discriminate. cbn in X. subst s. destruct y as [t|t| |t m' e' E']; cbn in *; try discriminate; subst; try reflexivity. rewrite negb_involutive. destruct a; reflexivity.
Qed.
(** the difference of ordered floats *)
Lemma minus_lt : forall x y, flt x y = true -> sg true (fminus x y) /\ sg false (fminus y x).
Proof.
  intros x y L. assert (NX : fisnan x = false) by (destruct x; try reflexivity; discriminate). assert (NY : fisnan y = false) by (destruct y, x; try reflexivity; discriminate).
  destruct (is_finite x) eqn:FX; [destruct (is_finite y) eqn:FY|].
  - apply flt_spec in L; try assumption. unfold f2R in L. pose proof (Bminus_correct 53 1024 _ _ mode_NE x y FX FY) as H. pose proof (Bminus_correct 53 1024 _ _ mode_NE y x FY FX) as H'. split; intros N.
    + destruct (Rlt_bool _ _) in H.
      * destruct H as (_ & _ & H). unfold fminus. rewrite H, Rcompare_Lt by lra. reflexivity.
      * destruct H as (H & S). apply overflow_sign in H. unfold fminus. destruct H as (-> & _). destruct (Bsign x) eqn:B; [reflexivity|]. destruct (Bsign y) eqn:B'; [|discriminate]. exfalso.
        assert (0 <= B2R x) by (apply sign_ge; first [congruence|assumption|rewrite Y; reflexivity]). assert (B2R y <= 0) by (apply sign_le; first [congruence|assumption|rewrite Y; reflexivity]). lra.
    + destruct (Rlt_bool _ _) in H'.
      * destruct H' as (_ & _ & H'). unfold fminus. rewrite H', Rcompare_Gt by lra. reflexivity.
      * destruct H' as (H' & S). apply overflow_sign in H'. unfold fminus. destruct H' as (-> & _). destruct (Bsign y) eqn:B; [|reflexivity]. destruct (Bsign x) eqn:B'; [discriminate|]. exfalso.
        assert (0 <= B2R x) by (apply sign_ge; first [congruence|assumption|rewrite Y; reflexivity]). assert (B2R y <= 0) by (apply sign_le; first [congruence|assumption|rewrite Y; reflexivity]). lra.
  - destruct y as [s|[|]| |s m e E]; try discriminate; destruct x as [t|[|]| |[|] m' e' E']; try discriminate; split; intros _; reflexivity.
  - destruct x as [s|[|]| |s m e E]; try discriminate; destruct y as [t|[|]| |[|] m' e' E']; try discriminate; split; intros _; reflexivity.
Qed.

(** ** floats as extended reals *)
Definition negf (x : f64) : Prop := flt x fzero = true.
Definition posf (x : f64) : Prop := flt fzero x = true.
Definition zerof (x : f64) : Prop := feqb x fzero = true.
Definition oppos (x y : f64) : Prop := (negf x /\ posf y) \/ (posf x /\ negf y).
Lemma neg_sign : forall x, negf x -> Bsign x = true /\ fisnan x = false /\ nonzero x = true.
Proof. intros [[|]|[|]| |[|] m e E] H; try discriminate; auto. Qed.
Lemma pos_sign : forall x, posf x -> Bsign x = false /\ fisnan x = false /\ nonzero x = true.
Proof. intros [[|]|[|]| |[|] m e E] H; try discriminate; auto. Qed.
Lemma trich : forall x, fisnan x = false -> (nonzero x = false) \/ (nonzero x = true /\ ((Bsign x = true /\ negf x) \/ (Bsign x = false /\ posf x))).
Proof. intros [[|]|[|]| |[|] m e E] H; try discriminate; first [left; reflexivity|right; split; [reflexivity|]; first [left; split; reflexivity|right; split; reflexivity]]. Qed.
Lemma opposite_true : forall x y, fisnan x = false -> fisnan y = false -> (opposite x y = true <-> oppos x y).
Proof.
  intros x y X Y. unfold opposite, oppos, signbit. destruct (trich x X) as [ZX|(ZX & [[SX PX]|[SX PX]])]; destruct (trich y Y) as [ZY|(ZY & [[SY PY]|[SY PY]])]; rewrite ZX, ?ZY, ?SX, ?SY; cbn;
    (split; [intros H; try discriminate; tauto|]); intros [[A B]|[A B]]; try reflexivity; apply neg_sign in A || apply pos_sign in A; apply neg_sign in B || apply pos_sign in B; destruct A as (A & _ & A'), B as (B & _ & B'); congruence.
Qed.
Lemma oppos_sign : forall x y, oppos x y -> Bsign y = negb (Bsign x) /\ fisnan x = false /\ fisnan y = false /\ nonzero x = true /\ nonzero y = true.
Proof. intros x y [[A B]|[A B]]; [apply neg_sign in A; apply pos_sign in B|apply pos_sign in A; apply neg_sign in B]; destruct A as (-> & ? & ?), B as (-> & ? & ?); auto. Qed.
Lemma oppos_sym : forall x y, oppos x y -> oppos y x.
Proof. intros x y [[A B]|[A B]]; [right|left]; auto. Qed.
Lemma signs_oppos : forall x y, fisnan x = false -> fisnan y = false -> nonzero x = true -> nonzero y = true -> Bsign y = negb (Bsign x) -> oppos x y.
Proof.
  intros x y X Y NX NY S. destruct (trich x X) as [Z|(_ & [[A B]|[A B]])]; [congruence| |]; destruct (trich y Y) as [Z|(_ & [[C D]|[C D]])]; try congruence; rewrite A, C in S; try discriminate; [left|right]; auto.
Qed.
(** of two floats of the same sign the one with the larger absolute value *)
Lemma abs_lt : forall x y, Bsign x = Bsign y -> flt (fabs x) (fabs y) = true -> if Bsign y then flt y x = true else flt x y = true.
Proof.
  intros x y S L. assert (NX : fisnan x = false) by (destruct x; try reflexivity; discriminate). assert (NY : fisnan y = false) by (destruct y, x; try reflexivity; discriminate).
  unfold fabs in L. destruct (Bsign y) eqn:B.
  - destruct (is_finite x) eqn:FX; [destruct (is_finite y) eqn:FY|].
    + apply flt_spec in L; [|unfold ffin; rewrite is_finite_Babs; assumption|unfold ffin; rewrite is_finite_Babs; assumption]. apply flt_spec; try assumption. unfold f2R in *. rewrite !B2R_Babs in L.
      assert (B2R x <= 0) by (apply sign_le; first [congruence|assumption|rewrite Y; reflexivity]). assert (B2R y <= 0) by (apply sign_le; first [congruence|assumption|rewrite Y; reflexivity]). rewrite !Rabs_left1 in L by assumption. lra.
    + destruct y as [s|s| |s m e E]; try discriminate. cbn in B; subst. destruct x as [t|t| |t m' e' E']; try discriminate; cbn in S; subst; reflexivity.
    + destruct x as [s|s| |s m e E]; try discriminate. destruct y as [t|t| |t m' e' E']; cbn in *; subst; try discriminate.
  - destruct (is_finite x) eqn:FX; [destruct (is_finite y) eqn:FY|].
    + apply flt_spec in L; [|unfold ffin; rewrite is_finite_Babs; assumption|unfold ffin; rewrite is_finite_Babs; assumption]. apply flt_spec; try assumption. unfold f2R in *. rewrite !B2R_Babs in L.
      assert (0 <= B2R x) by (apply sign_ge; first [congruence|assumption|rewrite Y; reflexivity]). assert (0 <= B2R y) by (apply sign_ge; first [congruence|assumption|rewrite Y; reflexivity]). rewrite !Rabs_pos_eq in L by assumption. lra.
    + destruct y as [s|s| |s m e E]; try discriminate. cbn in B; subst. destruct x as [t|t| |t m' e' E']; try discriminate; cbn in S; subst; reflexivity.
    + destruct x as [s|s| |s m e E]; try discriminate. destruct y as [t|t| |t m' e' E']; cbn in *; subst; try discriminate.
Qed.

(** ** rounding of numbers of moderate size *)
Lemma near : forall v, Rabs v < 2 -> Rabs (rnd v - v) <= b2 (-53).
Proof.
  intros v H. destruct (Req_dec v 0) as [->|E]; [rewrite rnd_0, Rminus_0_r, Rabs_R0; apply bpow_ge_0|].
  assert (Hu : ulp v <= b2 (-52)).
  { unfold Ulp.ulp. rewrite Req_bool_false by exact E. change (-52)%Z with (SpecFloat.fexp 53 1024 1). apply bpow_le. unfold cexp. apply mexp. apply mag_le_bpow; [exact E|]. change (bpow radix2 1) with 2. exact H. }
  assert (He : Rabs (rnd v - v) <= / 2 * ulp v) by (apply error_le_half_ulp; exact vexp).
  replace (b2 (-53)) with (/ 2 * b2 (-52)); [lra|]. change (-52)%Z with (-53 + 1)%Z. rewrite bpow_plus. change (b2 1) with 2. lra.
Qed.
Lemma b2_m53 : b2 (-53) = / 9007199254740992. Proof. reflexivity. Qed.
Lemma b2_m50 : b2 (-50) = / 1125899906842624. Proof. reflexivity. Qed.
Lemma b2_m18 : b2 (-18) = / 262144. Proof. reflexivity. Qed.
Lemma b2_m17 : b2 (-17) = / 131072. Proof. reflexivity. Qed.
Lemma b2_m16 : b2 (-16) = / 65536. Proof. reflexivity. Qed.
Lemma b2_0 : b2 0 = 1. Proof. reflexivity. Qed.
Lemma b2_1 : b2 1 = 2. Proof. reflexivity. Qed.
Lemma b2_2 : b2 2 = 4. Proof. reflexivity. Qed.
Lemma ftwo_val : f2R ftwo = 2 /\ ffin ftwo = true. Proof. apply (ofZ_spec 2). lia. Qed.
Lemma fthree_val : f2R fthree = 3 /\ ffin fthree = true. Proof. apply (ofZ_spec 3). lia. Qed.
Lemma fone_val : f2R fone = 1 /\ ffin fone = true. Proof. apply (ofZ_spec 1). lia. Qed.
Lemma fabs_val : forall x, f2R (fabs x) = Rabs (f2R x) /\ ffin (fabs x) = ffin x.
Proof. intros x. unfold f2R, fabs, ffin. rewrite B2R_Babs, is_finite_Babs. auto. Qed.
Lemma fopp_val : forall x, f2R (fopp x) = - f2R x /\ ffin (fopp x) = ffin x.
Proof. intros x. unfold f2R, fopp, ffin. rewrite B2R_Bopp, is_finite_Bopp. auto. Qed.
Lemma xtol_val : f2R xtol64 = 5902958103587057 * / 590295810358705651712 /\ ffin xtol64 = true.
Proof. apply (flit_spec 5902958103587057 (-69)); lia. Qed.
Lemma rtol_val : f2R rtol64 = / 1125899906842624 /\ ffin rtol64 = true.
Proof. destruct (flit_spec 1 (-50)) as [A B]; try lia. split; [|exact B]. unfold rtol64. rewrite A. change (bpow radix2 (-50)) with (/ 1125899906842624). lra. Qed.
Lemma rnd_lt : forall v b, fmt b -> rnd v < b -> v < b.
Proof. intros v b F H. destruct (Rlt_le_dec v b) as [L|L]; [exact L|]. apply rnd_le in L. rewrite (rnd_id b F) in L. lra. Qed.
Lemma rnd_ub : forall v b, fmt b -> v <= b -> rnd v <= b.
Proof. intros v b F H. rewrite <- (rnd_id b F). apply rnd_le. exact H. Qed.
Lemma rnd_lb : forall v b, fmt b -> b <= v -> b <= rnd v.
Proof. intros v b F H. rewrite <- (rnd_id b F). apply rnd_le. exact H. Qed.

Definition in01 (x : f64) : Prop := ffin x = true /\ 0 <= f2R x <= 1.
Lemma delta_val : forall s, in01 (x_cur s) -> ffin (s_delta xtol64 rtol64 s) = true /\ b2 (-18) <= f2R (s_delta xtol64 rtol64 s) <= b2 (-17) /\
  f2R (s_delta xtol64 rtol64 s) <= (1 / 100000 + 1 / 100000000000000) / 2.
Proof.
  intros s [F [L U]]. unfold s_delta. destruct xtol_val as [XT XF]. destruct rtol_val as [RT RF]. destruct ftwo_val as [T2 F2]. destruct (fabs_val (x_cur s)) as [AV AF]. rewrite F in AF. rewrite Rabs_pos_eq in AV by exact L.
  destruct (fmult_spec rtol64 (fabs (x_cur s)) 0 RF AF ltac:(lia)) as [MV MF]. { rewrite RT, AV, b2_0. rewrite Rabs_pos_eq by (apply Rmult_le_pos; lra). lra. }
  set (m := fmult rtol64 (fabs (x_cur s))) in *. rewrite RT, AV in MV.
  assert (M0 : 0 <= f2R m <= b2 (-50)). { rewrite MV. split; [apply rnd_lb; [apply (fmt_IZR 0); lia|nra]|]. apply rnd_ub; [apply fmt_bpow; lia|]. rewrite b2_m50. lra. }
  rewrite b2_m50 in M0.
  destruct (fplus_spec xtol64 m 0 XF MF ltac:(lia)) as [PV PF]. { rewrite XT, b2_0. rewrite Rabs_pos_eq by lra. lra. }
  set (p := fplus xtol64 m) in *. rewrite XT in PV.
  assert (P0 : b2 (-17) <= f2R p <= b2 (-16)). { rewrite PV. split; [apply rnd_lb; [apply fmt_bpow; lia|]|apply rnd_ub; [apply fmt_bpow; lia|]]; rewrite ?b2_m17, ?b2_m16; lra. }
  assert (P1 : Rabs (f2R p - (5902958103587057 * / 590295810358705651712 + f2R m)) <= b2 (-53)). { rewrite PV. apply near. rewrite Rabs_pos_eq by lra. lra. }
  rewrite b2_m53 in P1. apply Rabs_le_inv in P1. rewrite b2_m17, b2_m16 in P0.
  destruct (fdiv_spec p ftwo 0 PF ltac:(rewrite T2; lra) ltac:(lia)) as [DV DF]. { rewrite T2, b2_0. rewrite Rabs_pos_eq by lra. lra. }
  rewrite T2 in DV. split; [exact DF|]. assert (D1 : Rabs (rnd (f2R p / 2) - f2R p / 2) <= b2 (-53)) by (apply near; rewrite Rabs_pos_eq by lra; lra). rewrite b2_m53 in D1. apply Rabs_le_inv in D1.
  rewrite DV. split; [split; [apply rnd_lb; [apply fmt_bpow; lia|]|apply rnd_ub; [apply fmt_bpow; lia|]]; rewrite ?b2_m18, ?b2_m17; lra|lra].
Qed.
(** the half distance *)
Lemma bis_val : forall s, in01 (x_cur s) -> in01 (x_blk s) -> ffin (s_bis s) = true /\ Rabs (f2R (s_bis s) - (f2R (x_blk s) - f2R (x_cur s)) / 2) <= b2 (-52) /\ Rabs (f2R (s_bis s)) <= / 2.
Proof.
  intros s [F [L U]] [F' [L' U']]. unfold s_bis. destruct ftwo_val as [T2 F2].
  assert (DB : Rabs (f2R (x_blk s) - f2R (x_cur s)) <= 1) by (apply Rabs_le; lra).
  destruct (fminus_spec (x_blk s) (x_cur s) 0 F' F ltac:(lia)) as [MV MF]; [rewrite b2_0; exact DB|]. set (m := fminus (x_blk s) (x_cur s)) in *.
  assert (M1 : Rabs (f2R m) <= 1) by (rewrite MV; apply rnd_abs_le; [apply (fmt_IZR 1); lia|exact DB]).
  assert (M2 : Rabs (f2R m - (f2R (x_blk s) - f2R (x_cur s))) <= b2 (-53)) by (rewrite MV; apply near; lra).
  assert (H2 : Rabs (f2R m / 2) <= / 2). { unfold Rdiv. rewrite Rabs_mult, (Rabs_pos_eq (/ 2)) by lra. lra. }
  destruct (fdiv_spec m ftwo 0 MF ltac:(rewrite T2; lra) ltac:(lia)) as [DV DF]; [rewrite T2, b2_0; lra|]. rewrite T2 in DV. split; [exact DF|].
  assert (D1 : Rabs (rnd (f2R m / 2) - f2R m / 2) <= b2 (-53)) by (apply near; lra). rewrite DV. split.
  - change (-52)%Z with (-53 + 1)%Z. rewrite bpow_plus. change (b2 1) with 2. apply Rabs_le_inv in M2. apply Rabs_le_inv in D1. apply Rabs_le. lra.
  - apply rnd_abs_le; [apply (fmt_bpow (-1)); lia|exact H2].
Qed.
Definition btwf (x y z : f64) : Prop := (f2R x < f2R y < f2R z) \/ (f2R z < f2R y < f2R x).
(** adding a step that is not too short and not too long stays strictly inside *)
Lemma add_step : forall x y st, in01 x -> in01 y -> ffin st = true -> 0 < f2R st * (f2R y - f2R x) -> b2 (-20) <= Rabs (f2R st) <= Rabs (f2R y - f2R x) - b2 (-21) ->
  in01 (fplus x st) /\ btwf x (fplus x st) y.
Proof.
  intros x y st [F [L U]] [F' [L' U']] FS DIR [LO HI]. change (b2 (-20)) with (/ 1048576) in LO. change (b2 (-21)) with (/ 2097152) in HI.
  assert (B : (0 < f2R st /\ / 1048576 <= f2R st <= f2R y - f2R x - / 2097152) \/ (f2R st < 0 /\ / 1048576 <= - f2R st <= f2R x - f2R y - / 2097152)).
  { destruct (Rlt_dec 0 (f2R st)) as [P|P].
    - left. assert (0 < f2R y - f2R x) by nra. rewrite !Rabs_pos_eq in * by lra. lra.
    - right. assert (f2R st < 0) by (destruct (Req_dec (f2R st) 0) as [E|E]; [rewrite E, Rabs_R0 in LO; lra|lra]). assert (f2R y - f2R x < 0) by nra. rewrite (Rabs_left (f2R st)), (Rabs_left (f2R y - f2R x)) in * by lra. lra. }
  assert (BB : Rabs (f2R x + f2R st) <= 1) by (apply Rabs_le; lra).
  destruct (fplus_spec x st 0 F FS ltac:(lia)) as [PV PF]; [rewrite b2_0; exact BB|].
  assert (N : Rabs (rnd (f2R x + f2R st) - (f2R x + f2R st)) <= b2 (-53)) by (apply near; lra). rewrite b2_m53 in N. apply Rabs_le_inv in N. unfold in01, btwf. rewrite PV. split; [split; [exact PF|]; lra|lra].
Qed.

(** ** the bracket *)
Section Brent.
  Variable f : f64 -> f64.
  Hypothesis NN : forall x, in01 x -> fisnan (f x) = false.

  Definition inv1 (s : fst64) : Prop :=
    in01 (x_pre s) /\ in01 (x_cur s) /\ f (x_pre s) = f_pre s /\ f (x_cur s) = f_cur s /\
    (oppos (f_pre s) (f_cur s) \/ (in01 (x_blk s) /\ f (x_blk s) = f_blk s /\ oppos (f_blk s) (f_pre s) /\ btwf (x_pre s) (x_cur s) (x_blk s))).
  Definition inv2 (s : fst64) : Prop :=
    in01 (x_pre s) /\ in01 (x_cur s) /\ f (x_pre s) = f_pre s /\ f (x_cur s) = f_cur s /\
    in01 (x_blk s) /\ f (x_blk s) = f_blk s /\ (nonzero (f_cur s) = false \/ oppos (f_blk s) (f_cur s)) /\
    (x_pre s = x_blk s \/ (btwf (x_pre s) (x_cur s) (x_blk s) /\ (nonzero (f_cur s) = false \/ Bsign (f_pre s) = Bsign (f_cur s)))).

  Lemma flt_zero_abs : forall x y, nonzero x = false -> flt y x = true -> flt (fabs y) (fabs x) = true -> False.
  Proof. intros x y X _ L. destruct x as [[|]|[|]| |[|] m e E]; try discriminate; destruct y as [[|]|[|]| |[|] m' e' E']; discriminate. Qed.
  Lemma abs_zero : forall x y, nonzero x = false -> flt (fabs y) (fabs x) = true -> False.
  Proof. intros x y X L. destruct x as [[|]|[|]| |[|] m e E]; try discriminate; destruct y as [[|]|[|]| |[|] m' e' E']; discriminate. Qed.

  Lemma head_inv : forall s, inv1 s -> inv2 (s_swap (s_rebracket s)).
  Proof.
    intros s (P1 & P2 & F1 & F2 & H). assert (NP : fisnan (f_pre s) = false) by (rewrite <- F1; apply NN, P1). assert (NC : fisnan (f_cur s) = false) by (rewrite <- F2; apply NN, P2).
    assert (I : inv2 (s_rebracket s)).
    { unfold s_rebracket. destruct (opposite (f_pre s) (f_cur s)) eqn:O.
      - apply opposite_true in O; try assumption. unfold inv2. cbn [x_pre f_pre x_cur f_cur x_blk f_blk]. split; [exact P1|]. split; [exact P2|]. split; [exact F1|]. split; [exact F2|]. split; [exact P1|]. split; [exact F1|]. split; [right; exact O|left; reflexivity].
      - assert (NO : ~ oppos (f_pre s) (f_cur s)) by (intros X; apply opposite_true in X; congruence). destruct H as [H|(B1 & B2 & B3 & B4)]; [contradiction|].
        unfold inv2. split; [exact P1|]. split; [exact P2|]. split; [exact F1|]. split; [exact F2|]. split; [exact B1|]. split; [exact B2|].
        destruct (oppos_sign _ _ B3) as (S & NB & _ & ZB & ZP). destruct (nonzero (f_cur s)) eqn:ZC; [|split; [left; reflexivity|right; split; [exact B4|left; reflexivity]]].
        assert (SE : Bsign (f_pre s) = Bsign (f_cur s)). { destruct (Bool.bool_dec (Bsign (f_cur s)) (negb (Bsign (f_pre s)))) as [E|E]; [exfalso; apply NO; apply signs_oppos; assumption|]. destruct (Bsign (f_cur s)), (Bsign (f_pre s)); try reflexivity; exfalso; apply E; reflexivity. }
        split; [right; apply signs_oppos; try assumption; congruence|]. right. split; [exact B4|right; exact SE]. }
    destruct I as (I1 & I2 & I3 & I4 & I5 & I6 & I7 & I8). unfold s_swap. set (t := s_rebracket s) in *. clearbody t.
    destruct (flt (fabs (f_blk t)) (fabs (f_cur t))) eqn:E; [|unfold inv2; tauto]. unfold inv2. cbn [x_pre f_pre x_cur f_cur x_blk f_blk].
    split; [exact I2|]. split; [exact I5|]. split; [exact I4|]. split; [exact I6|]. split; [exact I2|]. split; [exact I4|].
    destruct I7 as [Z|Z]; [exfalso; eapply abs_zero; eassumption|]. split; [right; apply oppos_sym, Z|left; reflexivity].
  Qed.

  Lemma x_minus : forall x y, in01 x -> in01 y -> (f2R x < f2R y -> sg true (fminus x y)) /\ (f2R y < f2R x -> sg false (fminus x y)).
  Proof.
    intros x y [F _] [F' _]. split; intros L; [apply flt_spec in L; try assumption; exact (proj1 (minus_lt x y L))|apply flt_spec in L; try assumption; exact (proj2 (minus_lt y x L))].
  Qed.
  (** the trial step points to the other end of the bracket *)
  Lemma try_dir : forall s b, inv2 s -> nonzero (f_cur s) = true -> flt (fabs (f_cur s)) (fabs (f_pre s)) = true ->
    (if b : bool then f2R (x_blk s) < f2R (x_cur s) else f2R (x_cur s) < f2R (x_blk s)) -> sg b (s_try s).
  Proof.
    intros s b (I1 & I2 & I3 & I4 & I5 & I6 & I7 & I8) NZ L D. destruct I7 as [Z|Z]; [congruence|]. destruct (oppos_sign _ _ Z) as (S & NB & NC & ZB & _).
    assert (XB : sg b (fminus (x_blk s) (x_cur s)) /\ sg (negb b) (fminus (x_cur s) (x_blk s))).
    { destruct (x_minus (x_blk s) (x_cur s) I5 I2) as [A1 A2]. destruct (x_minus (x_cur s) (x_blk s) I2 I5) as [A3 A4]. destruct b; cbn; auto. }
    set (c := Bsign (f_cur s)) in *. assert (SC : sg c (f_cur s)) by (intros _; reflexivity). assert (SB : sg (negb c) (f_blk s)) by (intros _; rewrite S; apply eq_sym, negb_involutive).
    unfold s_try. destruct (feqb (x_pre s) (x_blk s)) eqn:Q.
    - assert (E : x_pre s = x_blk s). { destruct I8 as [E|[B _]]; [exact E|]. exfalso. unfold feqb in Q. rewrite Beqb_correct in Q; [|exact (proj1 I1)|exact (proj1 I5)]. unfold btwf, f2R in B. revert Q. case Req_bool_spec; [intros Q _; lra|discriminate]. }
      assert (EF : f_pre s = f_blk s) by (rewrite <- I3, <- I6, E; reflexivity). rewrite E, EF.
      pose proof (sg_div _ _ _ _ (sg_mult _ _ _ _ (sg_opp _ _ SC) (proj2 XB)) (sg_minus _ _ _ SC SB)) as G. destruct b, c; exact G.
    - assert (E : x_pre s <> x_blk s). { intros E. rewrite E in Q. unfold feqb in Q. rewrite Beqb_correct in Q by (exact (proj1 I5)). rewrite Req_bool_true in Q by reflexivity. discriminate. }
      destruct I8 as [E'|[B [Z'|SP]]]; [contradiction|congruence|]. fold c in SP. assert (SPs : sg c (f_pre s)) by (intros _; exact SP).
      assert (XP : sg (negb b) (fminus (x_pre s) (x_cur s))).
      { destruct (x_minus (x_pre s) (x_cur s) I1 I2) as [A1 A2]. unfold btwf in B. destruct b; cbn; [apply A2|apply A1]; lra. }
      assert (FP : sg c (fminus (f_pre s) (f_cur s))). { pose proof (abs_lt (f_cur s) (f_pre s) ltac:(rewrite SP; reflexivity) L) as AL. rewrite SP in AL. destruct c; [exact (proj1 (minus_lt _ _ AL))|exact (proj2 (minus_lt _ _ AL))]. }
      assert (FB : sg (negb c) (fminus (f_blk s) (f_cur s))) by (apply sg_minus; [exact SB|rewrite negb_involutive; exact SC]).
      assert (FBP : sg (negb c) (fminus (f_blk s) (f_pre s))) by (apply sg_minus; [exact SB|rewrite negb_involutive; exact SPs]).
      cbv zeta. set (dpre := fdiv (fminus (f_pre s) (f_cur s)) (fminus (x_pre s) (x_cur s))). set (dblk := fdiv (fminus (f_blk s) (f_cur s)) (fminus (x_blk s) (x_cur s))).
      assert (DP : sg (xorb c (negb b)) dpre) by (apply sg_div; assumption). assert (DB : sg (xorb (negb c) b) dblk) by (apply sg_div; [assumption|exact (proj1 XB)]).
      pose proof (sg_mult _ _ _ _ SB DB) as T1. pose proof (sg_mult _ _ _ _ SPs DP) as T2.
      assert (T : sg b (fminus (fmult (f_blk s) dblk) (fmult (f_pre s) dpre))) by (apply sg_minus; [destruct b, c; exact T1|destruct b, c; exact T2]).
      pose proof (sg_div _ _ _ _ (sg_mult _ _ _ _ (sg_opp _ _ SC) T) (sg_mult _ _ _ _ (sg_mult _ _ _ _ DB DP) FBP)) as G. destruct b, c; exact G.
  Qed.

  Lemma lt_fin : forall u v, sg false u -> flt u v = true -> ffin u = true.
  Proof. intros [a|[|]| |a m e E] v S L; try reflexivity; try discriminate; try (specialize (S eq_refl); discriminate); destruct v as [|[|]| |]; discriminate. Qed.
  Lemma sg_abs : forall x, sg false (fabs x).
  Proof. intros x N. unfold fabs. apply Bsign_Babs. Qed.
  Lemma cmin_lt : forall u a b, sg false u -> sg false a -> ffin b = true -> flt u (cmin a b) = true -> ffin u = true /\ f2R u < f2R b.
  Proof.
    intros u a b U A B L. unfold cmin in L. pose proof (lt_fin _ _ U L) as FU. split; [exact FU|]. destruct (flt a b) eqn:AB.
    - pose proof (lt_fin _ _ A AB) as FA. apply flt_spec in AB; try assumption. apply flt_spec in L; try assumption. lra.
    - apply flt_spec in L; assumption.
  Qed.
  Lemma double_fin : forall x, ffin (fmult ftwo (fabs x)) = true -> ffin x = true /\ f2R (fmult ftwo (fabs x)) = rnd (2 * Rabs (f2R x)).
  Proof.
    intros x H. destruct ftwo_val as [T2 F2]. destruct (fabs_val x) as [AV AF]. pose proof (Bmult_correct 53 1024 _ _ mode_NE ftwo (fabs x)) as C. change (B2R ftwo) with (f2R ftwo) in C. change (B2R (fabs x)) with (f2R (fabs x)) in C. rewrite T2, AV in C. unfold ffin, fmult in *. destruct (Rlt_bool _ _).
    - destruct C as (C1 & C2 & _). rewrite C2 in H. apply andb_true_iff in H. split; [rewrite <- AF; exact (proj2 H)|exact C1].
    - exfalso. destruct (Bmult mode_NE ftwo (fabs x)); try discriminate.
  Qed.

  Lemma move_btw : forall s, inv2 s -> nonzero (f_cur s) = true -> flt (fabs (s_bis s)) (s_delta xtol64 rtol64 s) = false ->
    exists x sp sc, s_move f xtol64 rtol64 s = mkS (x_cur s) (f_cur s) x (f x) (x_blk s) (f_blk s) sp sc /\ in01 x /\ btwf (x_cur s) x (x_blk s).
  Proof.
    intros s I NZ C. pose proof (try_dir s) as TD. destruct I as (I1 & I2 & I3 & I4 & I5 & I6 & I7 & I8). assert (I : inv2 s) by (unfold inv2; tauto).
    destruct (delta_val s I2) as (DF & [D1 D2] & _). destruct (bis_val s I2 I5) as (BF & B1 & B2). unfold s_move, s_steps. set (delta := s_delta xtol64 rtol64 s) in *. set (sbis := s_bis s) in *. clearbody delta sbis.
    destruct (fabs_val sbis) as [AV AF]. rewrite BF in AF. assert (DB : f2R delta <= Rabs (f2R sbis)). { rewrite <- AV. destruct (Rle_lt_dec (f2R delta) (f2R (fabs sbis))) as [G|G]; [exact G|]. apply flt_spec in G; try assumption. congruence. }
    set (X := f2R (x_blk s) - f2R (x_cur s)) in *. change (b2 (-52)) with (/ 4503599627370496) in B1. rewrite b2_m18 in D1. rewrite b2_m17 in D2.
    assert (BIG : (/ 262144 <= f2R sbis /\ / 131073 <= X) \/ (f2R sbis <= - / 262144 /\ X <= - / 131073)).
    { apply Rabs_le_inv in B1. destruct (Rle_lt_dec 0 (f2R sbis)) as [G|G]; [left; rewrite Rabs_pos_eq in DB by exact G; lra|right; rewrite Rabs_left in DB by exact G; lra]. }
    assert (STEP : forall st, ffin st = true -> 0 < f2R st * X -> / 1048576 <= Rabs (f2R st) <= Rabs X - / 2097152 -> in01 (fplus (x_cur s) st) /\ btwf (x_cur s) (fplus (x_cur s) st) (x_blk s)).
    { intros st FS P Q. apply add_step; try assumption. }
    assert (HALF : in01 (fplus (x_cur s) sbis) /\ btwf (x_cur s) (fplus (x_cur s) sbis) (x_blk s)).
    { apply STEP; [exact BF| |]; apply Rabs_le_inv in B1; destruct BIG as [[G1 G2]|[G1 G2]]; try nra; [rewrite !Rabs_pos_eq by lra; lra|rewrite !Rabs_left by lra; lra]. }
    assert (DELTA : in01 (fplus (x_cur s) (if flt fzero sbis then delta else fopp delta)) /\ btwf (x_cur s) (fplus (x_cur s) (if flt fzero sbis then delta else fopp delta)) (x_blk s)).
    { destruct (fopp_val delta) as [OV OF]. rewrite DF in OF. apply Rabs_le_inv in B1. destruct BIG as [[G1 G2]|[G1 G2]].
      - assert (Z : flt fzero sbis = true) by (apply flt_spec; [reflexivity|exact BF|cbn; lra]). rewrite Z. rewrite Rabs_pos_eq in DB by lra. apply STEP; [exact DF|nra|]. rewrite !Rabs_pos_eq by lra. lra.
      - assert (Z : flt fzero sbis = false). { destruct (flt fzero sbis) eqn:Q; [|reflexivity]. apply flt_spec in Q; [|reflexivity|exact BF]. cbn in Q. lra. }
        rewrite Z. rewrite Rabs_left in DB by lra. apply STEP; [exact OF|rewrite OV; nra|]. rewrite OV, Rabs_Ropp, (Rabs_pos_eq (f2R delta)), (Rabs_left X) by lra. lra. }
    assert (BIS : forall b : bool, in01 (fplus (x_cur s) (if b then sbis else if flt fzero sbis then delta else fopp delta)) /\ btwf (x_cur s) (fplus (x_cur s) (if b then sbis else if flt fzero sbis then delta else fopp delta)) (x_blk s)) by (intros [|]; assumption).
    destruct (flt delta (fabs (s_pre s)) && flt (fabs (f_cur s)) (fabs (f_pre s))) eqn:E; [|eexists _, _, _; split; [reflexivity|apply BIS]].
    apply andb_true_iff in E. destruct E as [_ E]. match goal with |- context [flt (fmult ftwo ?a) ?b] => destruct (flt (fmult ftwo a) b) eqn:T end; [|eexists _, _, _; split; [reflexivity|apply BIS]].
    eexists _, _, _. split; [reflexivity|]. destruct (flt delta (fabs (s_try s))) eqn:U; [|exact DELTA].
    destruct fthree_val as [T3 F3]. assert (A3 : Rabs (f2R fthree * f2R (fabs sbis)) <= 3 / 2). { rewrite T3, AV. rewrite Rabs_pos_eq by (pose proof (Rabs_pos (f2R sbis)); lra). lra. }
    destruct (fmult_spec fthree (fabs sbis) 1 F3 AF ltac:(lia)) as [MV MF]; [rewrite b2_1; lra|]. set (m := fmult fthree (fabs sbis)) in *.
    assert (M1 : Rabs (f2R m - 3 * Rabs (f2R sbis)) <= b2 (-53)) by (rewrite MV, T3, AV; apply near; rewrite T3, AV in A3; lra). rewrite b2_m53 in M1. apply Rabs_le_inv in M1.
    assert (AP : 0 <= Rabs (f2R sbis)) by apply Rabs_pos.
    destruct (fminus_spec m delta 1 MF DF ltac:(lia)) as [VV VF]; [rewrite b2_1; apply Rabs_le; lra|]. set (v := fminus m delta) in *.
    assert (V1 : f2R v <= f2R m) by (rewrite VV; apply rnd_ub; [apply fmt_B2R|lra]).
    apply cmin_lt in T; [|change false with (xorb false false); apply sg_mult; [intros _; reflexivity|apply sg_abs]|apply sg_abs|exact VF]. destruct T as [T1 T2].
    destruct (double_fin _ T1) as [SF SV]. rewrite SV in T2. apply rnd_lt in T2; [|apply fmt_B2R].
    destruct (fabs_val (s_try s)) as [TV TF]. rewrite SF in TF. apply flt_spec in U; try assumption. rewrite TV in U. clear TV TF.
    apply Rabs_le_inv in B1. apply STEP; [exact SF| |].
    - destruct BIG as [[G1 G2]|[G1 G2]].
      + pose proof (TD false I NZ E ltac:(cbn; unfold X in *; lra)) as G. assert (N : fisnan (s_try s) = false) by (destruct (s_try s); try reflexivity; discriminate). specialize (G N).
        assert (0 <= f2R (s_try s)) by (apply sign_ge; exact G). rewrite Rabs_pos_eq in U by assumption. nra.
      + pose proof (TD true I NZ E ltac:(cbn; unfold X in *; lra)) as G. assert (N : fisnan (s_try s) = false) by (destruct (s_try s); try reflexivity; discriminate). specialize (G N).
        assert (f2R (s_try s) <= 0) by (apply sign_le; exact G). rewrite Rabs_left1 in U by assumption. nra.
    - split; [lra|]. destruct BIG as [[G1 G2]|[G1 G2]]; [rewrite (Rabs_pos_eq X) by lra; rewrite (Rabs_pos_eq (f2R sbis)) in * by lra|rewrite (Rabs_left X) by lra; rewrite (Rabs_left (f2R sbis)) in * by lra]; lra.
  Qed.
End Brent.

Section Loop.
  Variable f : f64 -> f64.
  Hypothesis NN : forall x, in01 x -> fisnan (f x) = false.
  (** a root of the computed function, up to the tolerance: it vanishes there, or it changes sign within 1e-5 + 1e-13 *)
  Definition root64 (x : f64) : Prop := feqb (f x) fzero = true \/ exists y, in01 y /\ oppos (f x) (f y) /\ Rabs (f2R y - f2R x) <= 1 / 100000 + 1 / 10000000000000.

  Lemma loop_good : forall n s, inv1 f s -> (exists x, s_loop f xtol64 rtol64 n s = Ok x /\ in01 x /\ root64 x) \/ s_loop f xtol64 rtol64 n s = Raise RuntimeError.
  Proof.
    induction n as [|n IH]; intros s I; [right; reflexivity|]. cbn [s_loop]. apply (head_inv f NN) in I. set (t := s_swap (s_rebracket s)) in *. clearbody t. cbv zeta.
    destruct (negb (nonzero (f_cur t)) || flt (fabs (s_bis t)) (s_delta xtol64 rtol64 t)) eqn:E.
    - left. exists (x_cur t). split; [reflexivity|]. destruct I as (I1 & I2 & I3 & I4 & I5 & I6 & I7 & I8). split; [exact I2|]. destruct (nonzero (f_cur t)) eqn:Z.
      + cbn [negb orb] in E. right. exists (x_blk t). split; [exact I5|]. split; [rewrite I4, I6; apply oppos_sym; destruct I7; [congruence|assumption]|].
        destruct (delta_val t I2) as (DF & _ & D). destruct (bis_val t I2 I5) as (BF & B & _). destruct (fabs_val (s_bis t)) as [AV AF]. rewrite BF in AF. apply flt_spec in E; try assumption. rewrite AV in E.
        change (b2 (-52)) with (/ 4503599627370496) in B. apply Rabs_le_inv in B. apply Rabs_def2 in E. destruct E as [E E0]. apply Rabs_le. lra.
      + left. rewrite I4. unfold nonzero in Z. apply negb_false_iff in Z. exact Z.
    - apply orb_false_iff in E. destruct E as [E1 E2]. apply negb_false_iff in E1. apply IH. destruct (move_btw f t I E1 E2) as (x & sp & sc & -> & X & B). destruct I as (I1 & I2 & I3 & I4 & I5 & I6 & I7 & I8).
      unfold inv1. cbn [x_pre f_pre x_cur f_cur x_blk f_blk]. split; [exact I2|]. split; [exact X|]. split; [exact I4|]. split; [reflexivity|]. right. split; [exact I5|]. split; [exact I6|]. split; [destruct I7; [congruence|assumption]|exact B].
  Qed.
  Lemma in01_0 : in01 fzero. Proof. split; [reflexivity|]. cbn. lra. Qed.
  Lemma in01_1 : in01 fone. Proof. destruct fone_val as [A B]. split; [exact B|]. rewrite A. lra. Qed.
  Lemma brentq64_good : forall n, match brentq64 f fzero fone xtol64 rtol64 n with
    | Ok x => in01 x /\ root64 x
    | Raise RuntimeError => True
    | Raise ValueError => (negf (f fzero) /\ negf (f fone)) \/ (posf (f fzero) /\ posf (f fone))
    | Raise _ => False
    end.
  Proof.
    intros n. unfold brentq64. pose proof (NN _ in01_0) as N0. pose proof (NN _ in01_1) as N1. pose proof (trich _ N0) as T0. pose proof (trich _ N1) as T1.
    destruct (nonzero (f fzero)) eqn:Z0; cbn [negb]; [|split; [exact in01_0|left; unfold nonzero in Z0; apply negb_false_iff in Z0; exact Z0]].
    destruct (nonzero (f fone)) eqn:Z1; cbn [negb]; [|split; [exact in01_1|left; unfold nonzero in Z1; apply negb_false_iff in Z1; exact Z1]].
    destruct T0 as [T0|[_ T0]]; [discriminate|]. destruct T1 as [T1|[_ T1]]; [discriminate|]. unfold signbit.
    destruct (Bool.eqb (Bsign (f fzero)) (Bsign (f fone))) eqn:Q.
    - apply eqb_prop in Q. destruct T0 as [[A B]|[A B]], T1 as [[C D]|[C D]]; try congruence; auto.
    - apply eqb_false_iff in Q. destruct (loop_good n (mkS fzero (f fzero) fone (f fone) fzero fzero fzero fzero)) as [(x & -> & X)| ->]; [|exact X|exact Logic.I].
      unfold inv1. cbn [x_pre f_pre x_cur f_cur x_blk f_blk]. split; [exact in01_0|]. split; [exact in01_1|]. split; [reflexivity|]. split; [reflexivity|]. left. apply signs_oppos; try assumption. destruct (Bsign (f fzero)), (Bsign (f fone)); try reflexivity; exfalso; apply Q; reflexivity.
  Qed.
End Loop.
