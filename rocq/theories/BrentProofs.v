(** scipy's brentq meets the root-finder contract, in exact arithmetic and up to non-convergence. *)
From Coq Require Import List Reals Bool Lra Lia Psatz.
From Verif Require Import Base RSum StatsModel StatsProofs BrentModel SpecSolver.
Open Scope R_scope.

Lemma opp_sign_true : forall x y, opp_sign x y = true <-> x * y < 0.
Proof.
  intros x y. unfold opp_sign. rewrite orb_true_iff, !andb_true_iff, !rltb_true. split.
  - intros [[A B]|[A B]]; nra.
  - intros H. destruct (Rlt_dec x 0); [left|right]; split; try lra; try nra; destruct (Rlt_dec 0 x); try nra; try lra; assert (x = 0) by lra; subst; lra.
Qed.
Lemma opp_sign_false : forall x y, opp_sign x y = false <-> 0 <= x * y.
Proof. intros x y. rewrite <- not_true_iff_false, opp_sign_true. lra. Qed.

(** * Intermediate values on a closed interval *)
Definition clampR (a b x : R) : R := Rmax a (Rmin b x).
Lemma clampR_in : forall a b x, a <= b -> a <= clampR a b x <= b.
Proof. intros. unfold clampR, Rmax, Rmin. repeat destruct (Rle_dec _ _); lra. Qed.
Lemma clampR_id : forall a b x, a <= x <= b -> clampR a b x = x.
Proof. intros. unfold clampR, Rmax, Rmin. repeat destruct (Rle_dec _ _); lra. Qed.
Lemma clampR_lip : forall a b x y, a <= b -> Rabs (clampR a b y - clampR a b x) <= Rabs (y - x).
Proof. intros. unfold clampR, Rmax, Rmin. repeat destruct (Rle_dec _ _); unfold Rabs; repeat destruct (Rcase_abs _); lra. Qed.
Lemma ivt_on : forall f a b, a <= b -> continuous_on f a b -> f a * f b <= 0 -> exists r, a <= r <= b /\ f r = 0.
Proof.
  intros f a b Hab C S.
  assert (K : continuity (fun x => f (clampR a b x))).
  { intros x eps He. destruct (C (clampR a b x) (clampR_in a b x Hab) eps He) as (d & Hd & D). exists d. split; [exact Hd|].
    intros y [_ Hy]. unfold R_dist in *. simpl in *. unfold R_dist in *. apply D; [apply clampR_in, Hab|]. eapply Rle_lt_trans; [apply clampR_lip, Hab|exact Hy]. }
  destruct (IVT_cor (fun x => f (clampR a b x)) a b K Hab) as (r & Hr & E).
  - rewrite !clampR_id by lra. exact S.
  - exists r. split; [exact Hr|]. rewrite clampR_id in E by exact Hr. exact E.
Qed.
Lemma continuous_on_sub : forall f a b a' b', a <= a' -> b' <= b -> continuous_on f a b -> continuous_on f a' b'.
Proof. intros f a b a' b' Ha Hb C x Hx eps He. destruct (C x ltac:(lra) eps He) as (d & Hd & D). exists d. split; [exact Hd|]. intros y Hy. apply D. lra. Qed.

Section Brent.
  Variables (f : R -> R) (a b xtol rtol : R).
  Hypothesis Hab : a < b.
  Hypothesis Hx : 0 < xtol.
  Hypothesis Hr : 0 <= rtol.

  (** strictly between *)
  Definition btw (x y z : R) : Prop := x < y < z \/ z < y < x.
  Definition inv1 (s : bst) : Prop :=
    a <= xpre s <= b /\ a <= xcur s <= b /\ f (xpre s) = fpre s /\ f (xcur s) = fcur s /\
    (fpre s * fcur s < 0 \/ (a <= xblk s <= b /\ f (xblk s) = fblk s /\ fblk s * fpre s < 0 /\ btw (xpre s) (xcur s) (xblk s))).
  Definition inv2 (s : bst) : Prop :=
    a <= xpre s <= b /\ a <= xcur s <= b /\ f (xpre s) = fpre s /\ f (xcur s) = fcur s /\
    a <= xblk s <= b /\ f (xblk s) = fblk s /\ (fcur s = 0 \/ fblk s * fcur s < 0) /\
    (xpre s = xblk s \/ (btw (xpre s) (xcur s) (xblk s) /\ (fcur s = 0 \/ 0 < fpre s * fcur s))).

  Lemma sign_trans : forall x y z, x * y < 0 -> 0 <= y * z -> z = 0 \/ x * z < 0.
  Proof. intros x y z A B. destruct (Req_dec z 0) as [|Z]; [left; assumption|right]. destruct (Rlt_dec 0 y); [|assert (y < 0) by (destruct (Req_dec y 0); [subst; lra|lra])]; nra. Qed.

  Lemma head_inv : forall s, inv1 s -> inv2 (b_swap (b_rebracket s)).
  Proof.
    intros s (P1 & P2 & F1 & F2 & H).
    assert (I : inv2 (b_rebracket s)).
    { unfold b_rebracket. destruct (opp_sign (fpre s) (fcur s)) eqn:O.
      - apply opp_sign_true in O. unfold inv2. cbn [xpre fpre xcur fcur xblk fblk]. split; [exact P1|]. split; [exact P2|]. split; [exact F1|]. split; [exact F2|]. split; [exact P1|]. split; [exact F1|]. split; [right; exact O|left; reflexivity].
      - apply opp_sign_false in O. destruct H as [H|(B1 & B2 & B3 & B4)]; [lra|].
        unfold inv2. split; [exact P1|]. split; [exact P2|]. split; [exact F1|]. split; [exact F2|]. split; [exact B1|]. split; [exact B2|].
        destruct (sign_trans _ _ _ B3 O) as [Z|Z]; (split; [tauto|]); right; (split; [exact B4|]); [left; exact Z|]. right.
        destruct (Req_dec (fcur s) 0) as [Q|Q]; [rewrite Q in Z; lra|]. destruct (Req_dec (fpre s) 0) as [Q2|Q2]; [rewrite Q2 in B3; lra|]. assert (fpre s * fcur s <> 0) by (apply Rmult_integral_contrapositive_currified; assumption). lra. }
    destruct I as (I1 & I2 & I3 & I4 & I5 & I6 & I7 & I8). unfold b_swap. set (t := b_rebracket s) in *. clearbody t.
    destruct (rltb (Rabs (fblk t)) (Rabs (fcur t))) eqn:E; [|unfold inv2; tauto].
    apply rltb_true in E. unfold inv2. cbn [xpre fpre xcur fcur xblk fblk].
    split; [exact I2|]. split; [exact I5|]. split; [exact I4|]. split; [exact I6|]. split; [exact I2|]. split; [exact I4|].
    destruct I7 as [Z|Z]; [rewrite Z, Rabs_R0 in E; pose proof (Rabs_pos (fblk t)); lra|]. split; [right; lra|left; reflexivity].
  Qed.

  Lemma stry_dir : forall s, inv2 s -> fcur s <> 0 -> Rabs (fcur s) < Rabs (fpre s) -> 0 < b_stry s * (xblk s - xcur s).
  Proof.
    intros s (I1 & I2 & I3 & I4 & I5 & I6 & I7 & I8) N L. destruct I7 as [Z|Z]; [contradiction|].
    assert (XN : xblk s <> xcur s) by (intros C; rewrite C in I6; rewrite I6 in I4; rewrite <- I4 in Z; nra).
    unfold b_stry. destruct (reqb (xpre s) (xblk s)) eqn:Q.
    - apply reqb_true in Q. assert (FE : fpre s = fblk s) by congruence. rewrite Q, FE.
      assert (D : fcur s - fblk s <> 0) by nra.
      replace (- fcur s * (xcur s - xblk s) / (fcur s - fblk s) * (xblk s - xcur s)) with ((fcur s * (fcur s - fblk s)) * ((xblk s - xcur s) * (xblk s - xcur s)) / ((fcur s - fblk s) * (fcur s - fblk s))) by (field; exact D).
      apply Rdiv_lt_0_compat; [apply Rmult_lt_0_compat; nra|nra].
    - apply reqb_false in Q. destruct I8 as [I8|[B [I8|I8]]]; [contradiction|contradiction|]. clear Q.
      set (c := fcur s) in *. set (p := fpre s) in *. set (k := fblk s) in *. set (X := xblk s - xcur s) in *. set (Y := xpre s - xcur s) in *.
      assert (XY : X * Y < 0) by (unfold X, Y, btw in *; destruct B; nra).
      assert (CN : 0 < c * c) by nra. assert (LL : p * p - c * p > 0). { assert (Rabs c * Rabs p < Rabs p * Rabs p) by (pose proof (Rabs_pos c); nra). rewrite <- !Rabs_mult in H. rewrite !Rabs_pos_eq in H by nra. lra. }
      assert (KK : k * k - c * k > 0) by nra.
      assert (X0 : X <> 0) by nra. assert (Y0 : Y <> 0) by nra.
      assert (A1 : k - c <> 0) by (intros C; replace k with c in Z by lra; lra). assert (A2 : p - c <> 0) by (intros C; replace p with c in LL by lra; lra). assert (A3 : k - p <> 0) by (intros C; replace k with p in Z by lra; lra).
      replace (- c * (k * ((k - c) / X) - p * ((p - c) / Y)) / ((k - c) / X * ((p - c) / Y) * (k - p)) * X)
        with ((c * (k - p)) * ((k - c) * (p - c)) * ((k * k - c * k) * (- (X * Y)) + (p * p - c * p) * (X * X)) / (((k - c) * (p - c) * (k - p)) * ((k - c) * (p - c) * (k - p)))) by (field; tauto).
      assert (S0 : (c < 0 /\ 0 < k /\ p < c) \/ (0 < c /\ k < 0 /\ c < p)).
      { clear - L Z I8 CN. destruct (Rlt_dec 0 c) as [C|C]; [right|left].
        - assert (k < 0) by (clear - Z C; nra). assert (0 < p) by (clear - I8 C; nra). rewrite (Rabs_pos_eq c), (Rabs_pos_eq p) in L by lra. lra.
        - assert (C' : c < 0) by (clear - CN C; nra). assert (0 < k) by (clear - Z C'; nra). assert (p < 0) by (clear - I8 C'; nra). rewrite (Rabs_left c), (Rabs_left p) in L by lra. lra. }
      assert (S1 : c * (k - p) < 0) by (clear - S0; destruct S0 as [(? & ? & ?)|(? & ? & ?)]; nra).
      assert (S2 : (k - c) * (p - c) < 0) by (clear - S0; destruct S0 as [(? & ? & ?)|(? & ? & ?)]; nra).
      assert (S3 : 0 < X * X) by (clear - X0; apply (Rsqr_pos_lt X X0)).
      assert (S4 : 0 < (c * (k - p)) * ((k - c) * (p - c))) by (clear - S1 S2; nra).
      assert (S5 : (k - c) * (p - c) * (k - p) <> 0) by (repeat apply Rmult_integral_contrapositive_currified; assumption).
      apply Rdiv_lt_0_compat; [|apply (Rsqr_pos_lt _ S5)]. apply Rmult_lt_0_compat; [exact S4|].
      apply Rplus_lt_0_compat; apply Rmult_lt_0_compat; lra.
  Qed.

  Lemma move_btw : forall s, inv2 s -> fcur s <> 0 -> b_delta xtol rtol s <= Rabs (b_sbis s) ->
    exists x sp sc, b_move f xtol rtol s = mkB (xcur s) (fcur s) x (f x) (xblk s) (fblk s) sp sc /\ btw (xcur s) x (xblk s).
  Proof.
    intros s I N D. pose proof (stry_dir s I N) as SD.
    assert (DP : 0 < b_delta xtol rtol s). { unfold b_delta. pose proof (Rabs_pos (xcur s)). assert (0 <= rtol * Rabs (xcur s)) by (apply Rmult_le_pos; assumption). lra. }
    assert (SB : b_sbis s = (xblk s - xcur s) / 2) by reflexivity.
    unfold b_move, b_steps. set (delta := b_delta xtol rtol s) in *. set (sbis := b_sbis s) in *. clearbody delta sbis.
    assert (NZ : sbis <> 0) by (intros C; rewrite C, Rabs_R0 in D; lra).
    assert (HALF : btw (xcur s) (xcur s + sbis) (xblk s)) by (unfold btw; destruct (Rlt_dec 0 sbis); lra).
    assert (DELTA : btw (xcur s) (if rltb 0 sbis then xcur s + delta else xcur s - delta) (xblk s)).
    { unfold btw, rltb. destruct (Rlt_dec 0 sbis); [left; rewrite Rabs_pos_eq in D by lra|right; rewrite Rabs_left in D by lra]; lra. }
    destruct (andb (rltb delta (Rabs (spre s))) (rltb (Rabs (fcur s)) (Rabs (fpre s)))) eqn:E.
    - apply andb_true_iff in E. destruct E as [_ E]. apply rltb_true in E. specialize (SD E).
      destruct (rltb (2 * Rabs (b_stry s)) (Rmin (Rabs (spre s)) (3 * Rabs sbis - delta))) eqn:T.
      + apply rltb_true in T. assert (T2 : 2 * Rabs (b_stry s) < 3 * Rabs sbis) by (eapply Rlt_le_trans; [exact T|]; eapply Rle_trans; [apply Rmin_r|lra]).
        eexists _, _, _. split; [reflexivity|]. destruct (rltb delta (Rabs (b_stry s))) eqn:U; [|exact DELTA].
        unfold btw. destruct (Rlt_dec 0 sbis) as [Z|Z].
        * assert (0 < b_stry s) by nra. rewrite (Rabs_pos_eq (b_stry s)), (Rabs_pos_eq sbis) in T2 by lra. lra.
        * assert (b_stry s < 0) by nra. rewrite (Rabs_left (b_stry s)), (Rabs_left sbis) in T2 by lra. lra.
      + eexists _, _, _. split; [reflexivity|]. destruct (rltb delta (Rabs sbis)); assumption.
    - eexists _, _, _. split; [reflexivity|]. destruct (rltb delta (Rabs sbis)); assumption.
  Qed.

  Lemma move_inv : forall s, inv2 s -> fcur s <> 0 -> b_delta xtol rtol s <= Rabs (b_sbis s) -> inv1 (b_move f xtol rtol s).
  Proof.
    intros s I N D. destruct (move_btw s I N D) as (x & sp & sc & E & B). rewrite E. destruct I as (I1 & I2 & I3 & I4 & I5 & I6 & I7 & I8).
    unfold inv1. cbn [xpre fpre xcur fcur xblk fblk]. split; [exact I2|]. split; [unfold btw in B; lra|]. split; [exact I4|]. split; [reflexivity|]. right.
    split; [exact I5|]. split; [exact I6|]. split; [destruct I7; [contradiction|assumption]|exact B].
  Qed.

  Definition good (x : R) : Prop := a <= x <= b /\ (continuous_on f a b -> exists r, a <= r <= b /\ f r = 0 /\ Rabs (x - r) <= xtol + rtol * Rabs x).
  Lemma loop_good : forall n s, inv1 s -> (exists x, b_loop f xtol rtol n s = Ok x /\ good x) \/ b_loop f xtol rtol n s = Raise RuntimeError.
  Proof.
    induction n as [|n IH]; intros s I; [right; reflexivity|]. cbn [b_loop]. apply head_inv in I. set (t := b_swap (b_rebracket s)) in *. clearbody t. cbn zeta.
    destruct (orb (reqb (fcur t) 0) (rltb (Rabs (b_sbis t)) (b_delta xtol rtol t))) eqn:E.
    - left. exists (xcur t). split; [reflexivity|]. destruct I as (I1 & I2 & I3 & I4 & I5 & I6 & I7 & I8). split; [exact I2|]. intros C.
      assert (TOL : 0 <= xtol + rtol * Rabs (xcur t)) by (pose proof (Rabs_pos (xcur t)); assert (0 <= rtol * Rabs (xcur t)) by (apply Rmult_le_pos; assumption); lra).
      destruct (Req_dec (fcur t) 0) as [Z|Z].
      + exists (xcur t). split; [exact I2|]. split; [congruence|]. rewrite Rminus_diag_eq, Rabs_R0 by reflexivity. exact TOL.
      + apply orb_true_iff in E. destruct E as [E|E]; [apply reqb_true in E; contradiction|]. apply rltb_true in E. unfold b_sbis, b_delta in E.
        assert (E2 : Rabs (xblk t - xcur t) < xtol + rtol * Rabs (xcur t)). { unfold Rdiv in E. rewrite Rabs_mult, (Rabs_pos_eq (/ 2)) in E by lra. lra. }
        destruct I7 as [I7|I7]; [contradiction|].
        assert (exists r, (Rmin (xcur t) (xblk t) <= r <= Rmax (xcur t) (xblk t)) /\ f r = 0) as (r & R1 & R2).
        { apply ivt_on; [apply Rle_trans with (xcur t); [apply Rmin_l|apply Rmax_l]|apply (continuous_on_sub f a b); [apply Rmin_glb; lra|apply Rmax_lub; lra|exact C]|].
          unfold Rmin, Rmax. destruct (Rle_dec (xcur t) (xblk t)); rewrite I4, I6; lra. }
        exists r. unfold Rmin, Rmax in R1. split; [destruct (Rle_dec (xcur t) (xblk t)); lra|]. split; [exact R2|].
        left. eapply Rle_lt_trans; [|exact E2]. destruct (Rle_dec (xcur t) (xblk t)); unfold Rabs; repeat destruct (Rcase_abs _); lra.
    - apply orb_false_iff in E. destruct E as [E1 E2]. apply reqb_false in E1. apply rltb_false in E2. apply IH. apply move_inv; assumption.
  Qed.
End Brent.

(** only the values on the bracket matter *)
Lemma loop_ext : forall f g a b xtol rtol, a < b -> 0 < xtol -> 0 <= rtol -> (forall x, a <= x <= b -> f x = g x) ->
  forall n s, inv1 f a b s -> b_loop f xtol rtol n s = b_loop g xtol rtol n s.
Proof.
  intros f g a b xtol rtol Hab Hx Hr E. induction n as [|n IH]; intros s I; [reflexivity|]. cbn [b_loop]. apply head_inv in I. set (t := b_swap (b_rebracket s)) in *. clearbody t. cbn zeta.
  destruct (orb _ _) eqn:Q; [reflexivity|]. apply orb_false_iff in Q. destruct Q as [E1 E2]. apply reqb_false in E1. apply rltb_false in E2.
  pose proof (move_inv f a b xtol rtol Hx Hr t I E1 E2) as M.
  assert (MM : b_move f xtol rtol t = b_move g xtol rtol t).
  { destruct (move_btw f a b xtol rtol Hx Hr t I E1 E2) as (x & sp & sc & Ef & B). assert (a <= x <= b) by (destruct I as (I1 & I2 & I3 & I4 & I5 & I6 & I7 & I8); unfold btw in B; lra).
    unfold b_move in *. destruct (b_steps xtol rtol t) as [sp' sc']. injection Ef as Ex _ _ _. rewrite Ex. rewrite (E x) by assumption. reflexivity. }
  rewrite <- MM. apply IH. exact M.
Qed.

(** multiplying the function by a positive number changes nothing *)
Definition scale_st (k : R) (s : bst) : bst := mkB (xpre s) (k * fpre s) (xcur s) (k * fcur s) (xblk s) (k * fblk s) (spre s) (scur s).
Section Scale.
  Variables (k xtol rtol : R) (f : R -> R).
  Hypothesis Hk : 0 < k.
  Lemma opp_scale : forall x y, opp_sign (k * x) (k * y) = opp_sign x y.
  Proof. intros. apply eq_true_iff_eq. rewrite !opp_sign_true. assert (0 < k * k) by nra. split; intros; nra. Qed.
  Lemma rltb_scale : forall x y, rltb (k * x) (k * y) = rltb x y.
  Proof. intros. apply eq_true_iff_eq. rewrite !rltb_true. split; intros; nra. Qed.
  Lemma rabs_scale : forall x, Rabs (k * x) = k * Rabs x.
  Proof. intros. rewrite Rabs_mult, (Rabs_pos_eq k) by lra. reflexivity. Qed.
  Lemma reqb_scale0 : forall x, reqb (k * x) 0 = reqb x 0.
  Proof. intros. apply eq_true_iff_eq. rewrite !reqb_true. split; intros; nra. Qed.
  Lemma head_scale : forall s, b_swap (b_rebracket (scale_st k s)) = scale_st k (b_swap (b_rebracket s)).
  Proof.
    intros s. assert (E : b_rebracket (scale_st k s) = scale_st k (b_rebracket s)).
    { unfold b_rebracket. cbn [scale_st fpre fcur xpre xcur]. rewrite opp_scale. destruct (opp_sign _ _); reflexivity. }
    rewrite E. unfold b_swap. cbn [scale_st fblk fcur]. rewrite !rabs_scale, rltb_scale. destruct (rltb _ _); reflexivity.
  Qed.
  Lemma stry_scale : forall s, b_stry (scale_st k s) = b_stry s.
  Proof.
    intros [xp fp xc fc xb fb sp sc]. unfold b_stry, scale_st. cbn [xpre fpre xcur fcur xblk fblk]. assert (K0 : k <> 0) by lra.
    destruct (reqb xp xb).
    - replace (k * fc - k * fp) with (k * (fc - fp)) by ring. unfold Rdiv. rewrite Rinv_mult. replace (- (k * fc) * (xc - xp) * (/ k * / (fc - fp))) with ((k * / k) * (- fc * (xc - xp) * / (fc - fp))) by ring. rewrite Rinv_r by exact K0. ring.
    - cbn zeta. unfold Rdiv. set (ip := / (xp - xc)). set (ib := / (xb - xc)).
      replace ((k * fb - k * fc) * ib * ((k * fp - k * fc) * ip) * (k * fb - k * fp)) with ((k * k * k) * ((fb - fc) * ib * ((fp - fc) * ip) * (fb - fp))) by ring.
      rewrite (Rinv_mult (k * k * k)).
      replace (- (k * fc) * (k * fb * ((k * fb - k * fc) * ib) - k * fp * ((k * fp - k * fc) * ip)) * (/ (k * k * k) * / ((fb - fc) * ib * ((fp - fc) * ip) * (fb - fp))))
        with (((k * k * k) * / (k * k * k)) * (- fc * (fb * ((fb - fc) * ib) - fp * ((fp - fc) * ip)) * / ((fb - fc) * ib * ((fp - fc) * ip) * (fb - fp)))) by ring.
      rewrite Rinv_r; [ring|]. repeat apply Rmult_integral_contrapositive_currified; exact K0.
  Qed.
  Lemma move_scale : forall s, b_move (fun x => k * f x) xtol rtol (scale_st k s) = scale_st k (b_move f xtol rtol s).
  Proof.
    intros s. assert (E : b_steps xtol rtol (scale_st k s) = b_steps xtol rtol s).
    { unfold b_steps. rewrite stry_scale. cbn [scale_st fpre fcur spre scur]. rewrite !rabs_scale, rltb_scale. reflexivity. }
    unfold b_move. rewrite E. destruct (b_steps xtol rtol s) as [sp sc]. reflexivity.
  Qed.
  Lemma loop_scale : forall n s, b_loop (fun x => k * f x) xtol rtol n (scale_st k s) = b_loop f xtol rtol n s.
  Proof.
    induction n as [|n IH]; intros s; [reflexivity|]. cbn [b_loop]. cbn zeta. rewrite head_scale. set (t := b_swap (b_rebracket s)). clearbody t.
    rewrite move_scale, IH. cbn [scale_st fcur]. rewrite reqb_scale0. reflexivity.
  Qed.
End Scale.

Lemma brent_rtol_nonneg : 0 <= brent_rtol.
Proof. unfold brent_rtol. assert (0 < / 2 ^ 52) by (apply Rinv_0_lt_compat, pow_lt; lra). lra. Qed.

Lemma brent_start : forall f a b, a < b -> f a * f b < 0 -> inv1 f a b (mkB a (f a) b (f b) 0 0 0 0).
Proof. intros f a b Hab S. unfold inv1. cbn. repeat split; try lra. Qed.

Theorem brent_ok : forall iter, root_finder_ok (brent_iter iter).
Proof.
  intros iter. constructor.
  - intros f a b xtol Hab Hx S. unfold brent_iter. destruct (reqb (f a) 0) eqn:A; [left; exists a; split; [reflexivity|lra]|]. destruct (reqb (f b) 0) eqn:B; [left; exists b; split; [reflexivity|lra]|].
    apply reqb_false in A, B. assert (S' : f a * f b < 0) by (assert (f a * f b <> 0) by (apply Rmult_integral_contrapositive_currified; assumption); lra).
    rewrite (proj2 (opp_sign_true _ _) S'). cbn [negb].
    destruct (loop_good f a b xtol brent_rtol Hx brent_rtol_nonneg iter _ (brent_start f a b Hab S')) as [(x & E & G)|E]; [left; exists x; split; [exact E|apply G]|right; exact E].
  - intros f a b xtol x Hab Hx C. unfold brent_iter.
    assert (TOL : forall z, 0 <= xtol + solver_rtol * Rabs z) by (intros z; pose proof (Rabs_pos z); pose proof brent_rtol_nonneg; unfold brent_rtol, solver_rtol in *; assert (0 <= 4 * / 2 ^ 52 * Rabs z) by (apply Rmult_le_pos; assumption); lra).
    destruct (reqb (f a) 0) eqn:A.
    { intros E. injection E as <-. apply reqb_true in A. exists a. split; [lra|]. split; [exact A|]. rewrite Rminus_diag_eq, Rabs_R0 by reflexivity. apply TOL. }
    destruct (reqb (f b) 0) eqn:B.
    { intros E. injection E as <-. apply reqb_true in B. exists b. split; [lra|]. split; [exact B|]. rewrite Rminus_diag_eq, Rabs_R0 by reflexivity. apply TOL. }
    destruct (opp_sign (f a) (f b)) eqn:O; cbn [negb]; [|discriminate]. apply opp_sign_true in O. intros E.
    destruct (loop_good f a b xtol brent_rtol Hx brent_rtol_nonneg iter _ (brent_start f a b Hab O)) as [(y & E' & G)|E']; rewrite E' in E; [|discriminate]. injection E as <-. apply G. exact C.
  - intros f a b xtol Hab Hx S. unfold brent_iter. destruct (reqb (f a) 0) eqn:A; [apply reqb_true in A; rewrite A in S; lra|]. destruct (reqb (f b) 0) eqn:B; [apply reqb_true in B; rewrite B in S; lra|].
    rewrite (proj2 (opp_sign_false _ _)) by lra. reflexivity.
  - intros f g a b xtol Hab Hx E. unfold brent_iter. rewrite <- !E by lra. destruct (reqb (f a) 0); [reflexivity|]. destruct (reqb (f b) 0); [reflexivity|].
    destruct (opp_sign (f a) (f b)) eqn:O; [|reflexivity]. cbn [negb]. apply opp_sign_true in O. apply (loop_ext f g a b); try assumption; [apply brent_rtol_nonneg|]. apply brent_start; assumption.
  - intros f k a b xtol Hab Hx Hk. unfold brent_iter. rewrite !reqb_scale0 by exact Hk. destruct (reqb (f a) 0); [reflexivity|]. destruct (reqb (f b) 0); [reflexivity|]. rewrite opp_scale by exact Hk.
    destruct (negb _); [reflexivity|]. rewrite <- (loop_scale k xtol brent_rtol f Hk iter). unfold scale_st. cbn [xpre fpre xcur fcur xblk fblk spre scur]. rewrite Rmult_0_r. reflexivity.
Qed.
