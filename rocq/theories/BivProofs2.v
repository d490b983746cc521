From Coq Require Import ZArith List Reals Lra Lia Bool Sorting.Permutation Psatz.
From Verif Require Import Base RSum StatsModel StatsProofs SpecSolver BrentModel BrentProofs SpecBiv BivModel BivProofs.
Import ListNotations.
Open Scope R_scope.

Lemma unit_cell : forall n i, (1 <= n)%nat -> (i < n)%nat -> nth i (unit_edges n) 0 < nth (S i) (unit_edges n) 0.
Proof. intros. apply unit_incr; lia. Qed.

Section Unit.
  Variables (mvn : mvn_fun) (n1 n2 : nat).
  Hypothesis MV : mvn_ok mvn.
  Let G := binned_chi2 mvn (unit_edges n1) (unit_edges n2).
  Lemma grid_pos : forall c, (1 <= n1)%nat -> (1 <= n2)%nat -> In c (all_cells n1 n2) -> 0 < grid_prob mvn 0 (unit_edges n1) (unit_edges n2) c.
  Proof.
    intros [i j] H1 H2 H. unfold all_cells in H. apply in_prod_iff in H. rewrite !in_seq in H. apply (mvn_pos mvn MV); cbn [fst snd]; apply unit_cell; lia.
  Qed.
  Lemma G_nonneg : forall rho, (1 <= n1)%nat -> (1 <= n2)%nat -> 0 <= G rho.
  Proof.
    intros rho H1 H2. unfold G, binned_chi2. apply lsum_nonneg. intros c Hc. cbn zeta. rewrite !unit_length in Hc. replace (n1 + 1 - 1)%nat with n1 in Hc by lia. replace (n2 + 1 - 1)%nat with n2 in Hc by lia.
    pose proof (grid_pos c H1 H2 Hc) as P. destruct (Req_EM_T _ 0); [lra|]. apply Rmult_le_pos; [apply pow2_ge_0|left; apply Rinv_0_lt_compat; exact P].
  Qed.
  Lemma G_one_pos : (2 <= n1)%nat -> (2 <= n2)%nat -> 0 < G 1.
  Proof.
    intros H1 H2. unfold G, binned_chi2. rewrite !unit_length. replace (n1 + 1 - 1)%nat with n1 by lia. replace (n2 + 1 - 1)%nat with n2 by lia.
    apply lsum_pos with (a := (0, n2 - 1)%nat).
    - intros c Hc. cbn zeta. pose proof (grid_pos c ltac:(lia) ltac:(lia) Hc) as P. destruct (Req_EM_T _ 0); [lra|]. apply Rmult_le_pos; [apply pow2_ge_0|left; apply Rinv_0_lt_compat; exact P].
    - unfold all_cells. apply in_prod_iff. rewrite !in_seq. lia.
    - cbn zeta. pose proof (grid_pos (0, n2 - 1)%nat ltac:(lia) ltac:(lia)) as P. assert (Hc : In (0, n2 - 1)%nat (all_cells n1 n2)) by (unfold all_cells; apply in_prod_iff; rewrite !in_seq; lia). specialize (P Hc).
      destruct (Req_EM_T _ 0); [lra|].
      assert (Z : grid_prob mvn 1 (unit_edges n1) (unit_edges n2) (0, n2 - 1)%nat = 0).
      { apply (mvn_diag mvn MV); cbn [fst snd]; [apply unit_cell; lia| |replace (S (n2 - 1)) with (n2 - 1 + 1)%nat by lia; apply unit_incr; lia].
        rewrite !unit_nth by lia. apply le_INR in H1, H2. simpl (INR 2) in H1, H2. rewrite minus_INR by (apply INR_le; simpl; lra). simpl (INR 1).
        assert (10 / INR n1 <= 5). { apply Rmult_le_reg_r with (INR n1); [lra|]. unfold Rdiv. rewrite Rmult_assoc, Rinv_l by lra. lra. }
        assert (10 / INR n2 <= 5). { apply Rmult_le_reg_r with (INR n2); [lra|]. unfold Rdiv. rewrite Rmult_assoc, Rinv_l by lra. lra. }
        replace ((INR n2 - 1) * (10 / INR n2)) with (10 - 10 / INR n2) by (field; lra). lra. }
      rewrite Z. apply Rmult_lt_0_compat; [|apply Rinv_0_lt_compat; exact P]. simpl. nra.
  Qed.
End Unit.

Lemma rabs_le_inv : forall x y, Rabs x <= y -> - y <= x <= y.
Proof. intros x y H. unfold Rabs in H. destruct (Rcase_abs x); lra. Qed.

Section Main.
  Variables (mvn : mvn_fun) (sx sy : list R) (bq : root_finder).
  Hypothesis PS : point_symmetric mvn.
  Hypothesis Nx : sx <> []. Hypothesis Ny : sy <> [].
  Hypothesis Sx : symmetric_edges sx. Hypothesis Sy : symmetric_edges sy.
  Hypothesis BQ : root_finder_ok bq.
  Let G := binned_chi2 mvn sx sy.
  Variables (n : R) (nx ny : Z) (osx osy : option (list R)) (pedestal : R).
  Hypothesis HP : 0 <= pedestal.
  Hypothesis E1 : edges_checked osx nx = Ok sx. Hypothesis E2 : edges_checked osy ny = Ok sy.
  Hypothesis NG : n * G 1 <> 0.
  Let chi2_max := n * IZR (Z.min (nx - 1) (ny - 1)).
  Let xtol_pos : 0 < phik_xtol. Proof. unfold phik_xtol. lra. Qed.

  Lemma clip_cases : forall c, clip c chi2_max = c \/ (chi2_max < c /\ clip c chi2_max = chi2_max).
  Proof. intros c. unfold clip. destruct (rltb chi2_max c) eqn:E; cbn [andb]; [|left; reflexivity]. destruct (isclose c chi2_max); [right|left; reflexivity]. apply rltb_true in E. tauto. Qed.
  Lemma clip_le : forall c, clip c chi2_max <= c. Proof. intros c. destruct (clip_cases c) as [->|[H ->]]; lra. Qed.
  Lemma clip_id : forall c, c <= chi2_max -> clip c chi2_max = c.
  Proof. intros c H. unfold clip. rewrite (proj2 (rltb_false _ _) H). reflexivity. Qed.

  Lemma low : forall c, c <= pedestal -> phik_from_chi2 mvn bq c n nx ny osx osy pedestal = Ok 0.
  Proof.
    intros c H. rewrite (phik_from_chi2_closed mvn sx sy PS Nx Ny Sx Sy bq) by assumption. cbn zeta. rewrite (proj2 (rleb_true _ _)); [reflexivity|]. pose proof (clip_le c). unfold chi2_max in *. lra.
  Qed.
  Lemma high : forall c, chi2_max <= c -> pedestal < chi2_max -> phik_from_chi2 mvn bq c n nx ny osx osy pedestal = Ok 1.
  Proof.
    intros c H H0. rewrite (phik_from_chi2_closed mvn sx sy PS Nx Ny Sx Sy bq) by assumption. cbn zeta. fold chi2_max. destruct (clip_cases c) as [E|[H' E]]; rewrite E.
    - rewrite (proj2 (rleb_false _ _)) by lra. rewrite (proj2 (rleb_true _ _)) by lra. reflexivity.
    - rewrite (proj2 (rleb_false _ _)) by lra. rewrite (proj2 (rleb_true _ _)) by lra. reflexivity.
  Qed.
  Lemma mid : forall c, pedestal < c -> c < chi2_max -> phik_from_chi2 mvn bq c n nx ny osx osy pedestal = bq (pf_fun mvn sx sy n c pedestal chi2_max) 0 1 phik_xtol.
  Proof.
    intros c H H0. rewrite (phik_from_chi2_closed mvn sx sy PS Nx Ny Sx Sy bq) by assumption. cbn zeta. fold chi2_max. rewrite clip_id by lra.
    rewrite (proj2 (rleb_false _ _)) by lra. rewrite (proj2 (rleb_false _ _)) by lra. reflexivity.
  Qed.
  (** chi2 above both the pedestal and the (smaller) maximum: 1, or 0 if rounding down to the maximum brings it to the pedestal *)
  Lemma odd_case : forall c, pedestal < c -> chi2_max <= pedestal -> phik_from_chi2 mvn bq c n nx ny osx osy pedestal = Ok 0 \/ phik_from_chi2 mvn bq c n nx ny osx osy pedestal = Ok 1.
  Proof.
    intros c H H0. rewrite (phik_from_chi2_closed mvn sx sy PS Nx Ny Sx Sy bq) by assumption. cbn zeta. fold chi2_max. destruct (clip_cases c) as [E|[H' E]]; rewrite E.
    - right. rewrite (proj2 (rleb_false _ _)) by lra. rewrite (proj2 (rleb_true _ _)) by lra. reflexivity.
    - left. rewrite (proj2 (rleb_true _ _)) by lra. reflexivity.
  Qed.
  Lemma in_unit : forall c, (exists v, phik_from_chi2 mvn bq c n nx ny osx osy pedestal = Ok v /\ 0 <= v <= 1) \/
    (phik_from_chi2 mvn bq c n nx ny osx osy pedestal = Raise RuntimeError /\ pedestal < c < chi2_max).
  Proof.
    intros c. destruct (Rle_dec c pedestal) as [H|H]; [left; exists 0; split; [apply low, H|lra]|].
    destruct (Rle_dec chi2_max c) as [H0|H0].
    - left. destruct (Rlt_dec pedestal chi2_max) as [H1|H1]; [exists 1; split; [apply high; assumption|lra]|].
      destruct (odd_case c ltac:(lra) ltac:(lra)) as [E|E]; [exists 0|exists 1]; (split; [exact E|lra]).
    - rewrite mid by lra. destruct (bracket mvn sx sy n c pedestal chi2_max NG) as [B0 B1]; [lra|lra|].
      destruct (rf_bracket bq BQ (pf_fun mvn sx sy n c pedestal chi2_max) 0 1 phik_xtol) as [(x & E & R)|E]; [lra|exact xtol_pos|nra|left; exists x; tauto|right; split; [exact E|lra]].
  Qed.

  (** regular case *)
  Hypothesis REG : chi2_regular mvn sx sy.
  Hypothesis Nn : 0 < n.
  Lemma G1_pos : 0 < G 1.
  Proof. destruct REG as [_ M]. pose proof (M 0 1 ltac:(lra) ltac:(lra) ltac:(lra)) as H. rewrite G_zero in H. exact H. Qed.
  Lemma pf_form : forall c x, pf_fun mvn sx sy n c pedestal chi2_max x = pedestal + (chi2_max - pedestal) * (G x / G 1) - c.
  Proof. intros c x. unfold pf_fun. fold G. pose proof G1_pos. f_equal. f_equal. field. split; lra. Qed.
  Lemma pf_cont : forall c, continuous_on (pf_fun mvn sx sy n c pedestal chi2_max) 0 1.
  Proof.
    intros c x Hx eps He. pose proof G1_pos as GP. destruct REG as [C _].
    set (K := Rabs (chi2_max - pedestal) / G 1 + 1). assert (KP : 0 < K) by (unfold K; assert (0 <= Rabs (chi2_max - pedestal) / G 1) by (apply Rmult_le_pos; [apply Rabs_pos|left; apply Rinv_0_lt_compat; exact GP]); lra).
    destruct (C x Hx (eps / K)) as (d & Hd & D); [apply Rdiv_lt_0_compat; assumption|]. exists d. split; [exact Hd|]. intros y Hy Hyx. specialize (D y Hy Hyx). rewrite !pf_form. fold G in D.
    replace (pedestal + (chi2_max - pedestal) * (G y / G 1) - c - (pedestal + (chi2_max - pedestal) * (G x / G 1) - c)) with ((chi2_max - pedestal) / G 1 * (G y - G x)) by (field; lra).
    rewrite Rabs_mult. unfold Rdiv at 1. rewrite Rabs_mult, (Rabs_pos_eq (/ G 1)) by (left; apply Rinv_0_lt_compat; exact GP). fold (Rabs (chi2_max - pedestal) / G 1).
    apply Rle_lt_trans with (K * Rabs (G y - G x)); [apply Rmult_le_compat_r; [apply Rabs_pos|unfold K; lra]|].
    apply Rlt_le_trans with (K * (eps / K)); [apply Rmult_lt_compat_l; assumption|]. right. field. lra.
  Qed.
  Lemma G_inj_le : forall x y, 0 <= x <= 1 -> 0 <= y <= 1 -> G x <= G y -> x <= y.
  Proof. intros x y Hx Hy H. destruct (Rle_dec x y) as [|Q]; [assumption|]. destruct REG as [_ M]. pose proof (M y x ltac:(lra) ltac:(lra) ltac:(lra)). unfold G in H. lra. Qed.
  (** the solver's answer is close to the true root *)
  Lemma near_root : forall c v, pedestal < c -> c < chi2_max -> phik_from_chi2 mvn bq c n nx ny osx osy pedestal = Ok v ->
    exists r, 0 <= r <= 1 /\ G r = G 1 * ((c - pedestal) / (chi2_max - pedestal)) /\ Rabs (v - r) <= solver_tol.
  Proof.
    intros c v H H0 E. pose proof G1_pos as GP. rewrite mid in E by lra. destruct (rf_root bq BQ _ 0 1 phik_xtol v ltac:(lra) xtol_pos (pf_cont c) E) as (r & R1 & R2 & R3).
    exists r. split; [exact R1|]. split.
    - rewrite pf_form in R2. assert (R4 : (chi2_max - pedestal) * (G r / G 1) = c - pedestal) by lra.
      replace (G r) with (G 1 * ((chi2_max - pedestal) * (G r / G 1) / (chi2_max - pedestal))) by (field; lra). rewrite R4. reflexivity.
    - eapply Rle_trans; [exact R3|]. unfold solver_tol, phik_xtol. destruct (bracket mvn sx sy n c pedestal chi2_max NG H H0) as [B0 B1].
      destruct (rf_bracket bq BQ (pf_fun mvn sx sy n c pedestal chi2_max) 0 1 phik_xtol) as [(x & E' & R)|E']; [lra|exact xtol_pos|nra| |congruence].
      assert (x = v) by congruence. subst x. rewrite (Rabs_pos_eq v) by lra. pose proof brent_rtol_nonneg. unfold brent_rtol in *. fold solver_rtol in *. nra.
  Qed.
  Lemma monotone : forall ca cb va vb, ca <= cb -> phik_from_chi2 mvn bq ca n nx ny osx osy pedestal = Ok va -> phik_from_chi2 mvn bq cb n nx ny osx osy pedestal = Ok vb -> va <= vb + 2 * solver_tol.
  Proof.
    intros ca cb va vb L Ea Eb. assert (TP : 0 < solver_tol) by (unfold solver_tol; pose proof brent_rtol_nonneg; unfold brent_rtol in *; fold solver_rtol in *; lra).
    assert (Ua : 0 <= va <= 1) by (destruct (in_unit ca) as [(x & E & R)|[E _]]; [assert (x = va) by congruence; subst; exact R|congruence]).
    assert (Ub : 0 <= vb <= 1) by (destruct (in_unit cb) as [(x & E & R)|[E _]]; [assert (x = vb) by congruence; subst; exact R|congruence]).
    destruct (Rle_dec ca pedestal) as [H|H]; [rewrite low in Ea by exact H; injection Ea as <-; lra|].
    destruct (Rlt_dec pedestal chi2_max) as [HM|HM].
    - destruct (Rle_dec chi2_max cb) as [H0|H0]; [rewrite high in Eb by assumption; injection Eb as <-; lra|].
      destruct (near_root ca va ltac:(lra) ltac:(lra) Ea) as (ra & A1 & A2 & A3). destruct (near_root cb vb ltac:(lra) ltac:(lra) Eb) as (rb & B1 & B2 & B3).
      assert (ra <= rb). { apply G_inj_le; [exact A1|exact B1|]. rewrite A2, B2. pose proof G1_pos. apply Rmult_le_compat_l; [lra|]. apply Rmult_le_compat_r; [left; apply Rinv_0_lt_compat; lra|lra]. }
      apply rabs_le_inv in A3. apply rabs_le_inv in B3. lra.
    - (* chi2_max <= pedestal < ca <= cb: if ca is not rounded down neither is cb *)
      rewrite (phik_from_chi2_closed mvn sx sy PS Nx Ny Sx Sy bq) in Ea, Eb by assumption. cbn zeta in Ea, Eb. fold chi2_max in Ea, Eb.
      assert (CM : clip ca chi2_max = ca -> clip cb chi2_max = cb).
      { unfold clip. rewrite !(proj2 (rltb_true _ _)) by lra. cbn [andb]. unfold isclose. destruct (rleb (Rabs (ca - chi2_max)) _) eqn:Q; [intros C; lra|]. intros _.
        apply rleb_false in Q. rewrite (proj2 (rleb_false _ _)); [reflexivity|]. rewrite (Rabs_pos_eq (ca - chi2_max)) in Q by lra. rewrite (Rabs_pos_eq (cb - chi2_max)) by lra. lra. }
      destruct (clip_cases ca) as [C|[C C']].
      + rewrite (CM C) in Eb. rewrite (proj2 (rleb_false _ _)) in Eb by lra. rewrite (proj2 (rleb_true _ _)) in Eb by lra. injection Eb as <-. lra.
      + rewrite C' in Ea. rewrite (proj2 (rleb_true _ _)) in Ea by lra. injection Ea as <-. lra.
  Qed.
  Lemma roundtrip : forall rho v, 0 < rho < 1 -> pedestal < chi2_max ->
    phik_from_chi2 mvn bq (pedestal + n * G rho * ((chi2_max - pedestal) / (n * G 1))) n nx ny osx osy pedestal = Ok v -> Rabs (v - rho) <= solver_tol.
  Proof.
    intros rho v Hr HM E. pose proof G1_pos as GP. assert (GM := proj2 REG). pose proof (GM 0 rho ltac:(lra) ltac:(lra) ltac:(lra)) as A. pose proof (GM rho 1 ltac:(lra) ltac:(lra) ltac:(lra)) as B. rewrite G_zero in A. fold G in A, B.
    set (c := pedestal + n * G rho * ((chi2_max - pedestal) / (n * G 1))) in *.
    assert (EC : c = pedestal + (chi2_max - pedestal) * (G rho / G 1)) by (unfold c; field; lra).
    assert (F0 : 0 < G rho / G 1) by (apply Rdiv_lt_0_compat; lra). assert (F1 : G rho / G 1 < 1) by (apply Rmult_lt_reg_r with (G 1); [lra|]; unfold Rdiv; rewrite Rmult_assoc, Rinv_l by lra; lra).
    destruct (near_root c v) as (r & R1 & R2 & R3); [rewrite EC; nra|rewrite EC; nra|exact E|].
    assert (R4 : G r = G rho). { rewrite R2, EC. field. lra. }
    assert (r = rho) by (apply Rle_antisym; apply G_inj_le; lra). subst r. exact R3.
  Qed.
End Main.

(** * A root finder that always converges: bisection *)
Fixpoint bisect (f : R -> R) (k : nat) (lo hi : R) : R :=
  match k with
  | O => lo
  | S k' => let mid := (lo + hi) / 2 in
            if rleb (f lo * f mid) 0 then bisect f k' lo mid else bisect f k' mid hi
  end.
Definition bisection : root_finder := fun f a b xtol =>
  if rltb 0 (f a * f b) then Raise ValueError else Ok (bisect f (Z.to_nat (up ((b - a) / xtol))) a b).

Lemma bisect_spec : forall f k lo hi, lo <= hi -> f lo * f hi <= 0 ->
  exists lo' hi', lo <= lo' /\ lo' <= hi' /\ hi' <= hi /\ bisect f k lo hi = lo' /\ f lo' * f hi' <= 0 /\ hi' - lo' = (hi - lo) / 2 ^ k.
Proof.
  intros f k. induction k as [|k IH]; intros lo hi L S.
  - exists lo, hi. cbn [bisect pow]. repeat split; lra.
  - cbn [bisect]. cbn zeta. set (m := (lo + hi) / 2). assert (M : m = (lo + hi) / 2) by reflexivity. clearbody m.
    destruct (rleb (f lo * f m) 0) eqn:E.
    + apply rleb_true in E. destruct (IH lo m ltac:(lra) E) as (l & h & A & B & C & D & F & W). exists l, h. repeat split; try lra; try assumption. rewrite W. simpl. subst m. field. apply pow_nonzero. lra.
    + apply rleb_false in E. assert (S2 : f m * f hi <= 0). { destruct (Rlt_dec 0 (f lo)); [assert (0 < f m) by nra; assert (f hi <= 0) by nra; nra|]. assert (f lo <> 0) by (intros C; rewrite C in E; lra). assert (f lo < 0) by lra. assert (f m < 0) by nra. assert (0 <= f hi) by nra. nra. }
      destruct (IH m hi ltac:(lra) S2) as (l & h & A & B & C & D & F & W). exists l, h. repeat split; try lra; try assumption. rewrite W. simpl. subst m. field. apply pow_nonzero. lra.
Qed.
Lemma bisect_ext : forall f g a b, (forall x, a <= x <= b -> f x = g x) -> forall k lo hi, a <= lo -> lo <= hi -> hi <= b -> bisect f k lo hi = bisect g k lo hi.
Proof.
  intros f g a b E. induction k as [|k IH]; intros lo hi A B C; [reflexivity|]. cbn [bisect]. cbn zeta. rewrite (E lo), (E ((lo + hi) / 2)) by lra. destruct (rleb _ _); apply IH; lra.
Qed.
Lemma bisect_scale : forall f q, 0 < q -> forall k lo hi, bisect (fun x => q * f x) k lo hi = bisect f k lo hi.
Proof.
  intros f q Q. induction k as [|k IH]; intros lo hi; [reflexivity|]. cbn [bisect]. cbn zeta. rewrite !IH.
  replace (rleb (q * f lo * (q * f ((lo + hi) / 2))) 0) with (rleb (f lo * f ((lo + hi) / 2)) 0); [reflexivity|].
  apply eq_true_iff_eq. rewrite !rleb_true. assert (0 < q * q) by nra. split; intros; nra.
Qed.
Lemma pow2_ge_n : forall n, INR n <= 2 ^ n.
Proof. induction n as [|n IH]; [simpl; lra|]. rewrite S_INR. cbn [pow]. assert (1 <= 2 ^ n) by (apply pow_R1_Rle; lra). lra. Qed.

Theorem bisection_ok : root_finder_ok bisection /\ root_finder_converges bisection.
Proof.
  split; [constructor|].
  - intros f a b xtol Hab Hx S. left. unfold bisection. rewrite (proj2 (rltb_false _ _)) by lra. destruct (bisect_spec f (Z.to_nat (up ((b - a) / xtol))) a b ltac:(lra) S) as (l & h & A & B & C & D & _).
    exists (bisect f (Z.to_nat (up ((b - a) / xtol))) a b). split; [reflexivity|]. rewrite D. lra.
  - intros f a b xtol x Hab Hx C. unfold bisection. destruct (rltb 0 (f a * f b)) eqn:S; [discriminate|]. apply rltb_false in S. intros E. injection E as E.
    destruct (bisect_spec f (Z.to_nat (up ((b - a) / xtol))) a b ltac:(lra) S) as (l & h & A & B & H & D & F & W). rewrite D in E. subst l.
    destruct (ivt_on f x h B (continuous_on_sub f a b x h A H C) F) as (r & R1 & R2). exists r. split; [lra|]. split; [exact R2|].
    assert (WD : h - x <= xtol).
    { rewrite W. set (k := Z.to_nat (up ((b - a) / xtol))). pose proof (archimed ((b - a) / xtol)) as [U _].
      assert (P : 0 < (b - a) / xtol) by (apply Rdiv_lt_0_compat; lra).
      assert (K : (b - a) / xtol <= 2 ^ k). { eapply Rle_trans; [|apply pow2_ge_n]. unfold k. rewrite INR_IZR_INZ, Z2Nat.id; [lra|]. apply le_IZR. lra. }
      assert (0 < 2 ^ k) by (apply pow_lt; lra). apply Rmult_le_reg_r with (2 ^ k); [assumption|]. unfold Rdiv. rewrite Rmult_assoc, Rinv_l by lra.
      apply Rmult_le_compat_r with (r := xtol) in K; [|lra]. unfold Rdiv in K. rewrite Rmult_assoc, Rinv_l in K by lra. lra. }
    assert (0 <= solver_rtol * Rabs x) by (apply Rmult_le_pos; [apply brent_rtol_nonneg|apply Rabs_pos]). rewrite Rabs_left1 by lra. lra.
  - intros f a b xtol Hab Hx S. unfold bisection. rewrite (proj2 (rltb_true _ _) S). reflexivity.
  - intros f g a b xtol Hab Hx E. unfold bisection. rewrite <- !E by lra. destruct (rltb _ _); [reflexivity|]. f_equal. apply (bisect_ext f g a b E); lra.
  - intros f q a b xtol Hab Hx Q. unfold bisection. rewrite bisect_scale by exact Q. replace (rltb 0 (q * f a * (q * f b))) with (rltb 0 (f a * f b)); [reflexivity|].
    apply eq_true_iff_eq. rewrite !rltb_true. assert (0 < q * q) by nra. split; intros; nra.
  - intros f a b xtol Hab Hx S. unfold bisection. rewrite (proj2 (rltb_false _ _)) by lra. discriminate.
Qed.

(** * A bivariate distribution meeting the assumptions: a mixture of independence and full correlation with uniform margins *)
Definition seg (l u : R) : R := Rmax 0 (u - l).
Definition mixture : mvn_fun := fun rho lx ly ux uy => (1 - rho) * (seg lx ux * seg ly uy) + rho * seg (Rmax lx ly) (Rmin ux uy).
Lemma mixture_ok : mvn_ok mixture.
Proof.
  constructor.
  - intros rho lx ly ux uy. unfold mixture. f_equal; f_equal.
    + unfold seg. f_equal; f_equal; lra.
    + unfold seg, Rmax, Rmin. repeat destruct (Rle_dec _ _); lra.
  - intros rho lx ly ux uy. unfold mixture. rewrite (Rmult_comm (seg lx ux)), (Rmax_comm lx ly), (Rmin_comm ux uy). reflexivity.
  - intros lx ly ux uy H1 H2. unfold mixture, seg. rewrite (Rmax_right 0 (ux - lx)), (Rmax_right 0 (uy - ly)) by lra. assert (0 < (ux - lx) * (uy - ly)) by (apply Rmult_lt_0_compat; lra). lra.
  - intros lx ly ux uy H1 H2 H3. unfold mixture, seg. rewrite (Rmax_right lx ly), (Rmin_left ux uy) by lra. rewrite (Rmax_left 0 (ux - ly)) by lra. lra.
Qed.
Lemma mixture_chi2 : forall sx sy rho, binned_chi2 mixture sx sy rho = rho * rho * binned_chi2 mixture sx sy 1.
Proof.
  intros sx sy rho. unfold binned_chi2. rewrite <- lsum_scal. apply lsum_ext. intros c _. cbn zeta. destruct (Req_EM_T _ 0); [ring|]. unfold Rdiv. rewrite <- Rmult_assoc. f_equal.
  unfold grid_prob, mixture. ring.
Qed.
Lemma mixture_regular : forall n1 n2, (2 <= n1)%nat -> (2 <= n2)%nat -> chi2_regular mixture (unit_edges n1) (unit_edges n2).
Proof.
  intros n1 n2 H1 H2. pose proof (G_one_pos mixture n1 n2 mixture_ok H1 H2) as P. set (g := binned_chi2 mixture (unit_edges n1) (unit_edges n2) 1) in *. split.
  - intros x Hx eps He. exists (eps / (2 * g)). split; [apply Rdiv_lt_0_compat; lra|]. intros y Hy D. rewrite (mixture_chi2 _ _ y), (mixture_chi2 _ _ x). fold g.
    replace (y * y * g - x * x * g) with ((y + x) * g * (y - x)) by ring. rewrite Rabs_mult, (Rabs_pos_eq ((y + x) * g)) by (apply Rmult_le_pos; lra).
    apply Rle_lt_trans with (2 * g * Rabs (y - x)); [apply Rmult_le_compat_r; [apply Rabs_pos|nra]|].
    apply Rlt_le_trans with (2 * g * (eps / (2 * g))); [apply Rmult_lt_compat_l; lra|]. right. field. lra.
  - intros x y Hx Hxy Hy. rewrite (mixture_chi2 _ _ x), (mixture_chi2 _ _ y). fold g. apply Rmult_lt_compat_r; [exact P|nra].
Qed.
