(** One cell of the table generator in exact arithmetic: which variates lead to which entry. *)
From Coq Require Import ZArith List Reals Lia Lra Arith Permutation Bool.
Import ListNotations.
From Verif Require Import SpecRcont SpecTableDist RSum HyperProofs RcontModel RcontGen.
Open Scope Z_scope.

Lemma rle_true : forall x y, rle_bool x y = true <-> (x <= y)%R.
Proof. intros x y. unfold rle_bool. destruct (Rle_dec x y); split; intros; auto; discriminate. Qed.
Lemma rle_false : forall x y, rle_bool x y = false <-> (y < x)%R.
Proof. intros x y. unfold rle_bool. destruct (Rle_dec x y); split; intros; auto; try discriminate; lra. Qed.

(** inverse-transform search through [l] *)
Fixpoint scan (pmf : Z -> R) (l : list Z) (r s : R) : sres R :=
  match l with
  | [] => Exhausted s
  | n :: l' => let s' := (s + pmf n)%R in if rle_bool r s' then Found n else scan pmf l' r s'
  end.

Lemma scan_found : forall pmf l r s n, (forall x, In x l -> (0 < pmf x)%R) -> NoDup l -> (s < r)%R -> In n l ->
  exists l1 l2, l = l1 ++ n :: l2 /\
    (scan pmf l r s = Found n <-> (s + lsum pmf l1 < r <= s + lsum pmf l1 + pmf n)%R).
Proof.
  intros pmf. induction l as [|x l IH]; intros r s n Hp Hnd Hs Hin; [destruct Hin|].
  inversion Hnd as [|? ? Hx Hnd']; subst. cbn [scan].
  destruct Hin as [->|Hin].
  - exists [], l. split; [reflexivity|]. rewrite lsum_nil. destruct (rle_bool r (s + pmf n)) eqn:E.
    + apply rle_true in E. split; [intros _; lra|reflexivity].
    + apply rle_false in E. split; [|intros; lra]. intros H. exfalso.
      assert (Hn : forall l r s, scan pmf l r s = Found n -> In n l).
      { clear. induction l as [|y l IH]; intros r s H; cbn [scan] in H; [discriminate|].
        destruct (rle_bool r (s + pmf y)); [injection H as ->; left; reflexivity|right; eauto]. }
      exact (Hx (Hn _ _ _ H)).
  - destruct (rle_bool r (s + pmf x)) eqn:E.
    + apply rle_true in E. destruct (in_split _ _ Hin) as (l1 & l2 & ->). exists (x :: l1), l2. split; [reflexivity|].
      assert (n <> x) by (intros ->; apply Hx; apply in_or_app; right; left; reflexivity).
      split; [intros H0; injection H0; intros; congruence|]. intros [H1 _]. exfalso. rewrite lsum_cons in H1.
      assert (0 <= lsum pmf l1)%R; [|lra]. apply lsum_nonneg. intros y Hy. left. apply Hp. right. apply in_or_app. left. exact Hy.
    + apply rle_false in E. destruct (IH r (s + pmf x)%R n) as (l1 & l2 & -> & H); auto.
      { intros y Hy. apply Hp. right. exact Hy. }
      exists (x :: l1), l2. split; [reflexivity|]. rewrite H, lsum_cons. split; intros; lra.
Qed.

Lemma scan_total : forall pmf l r s, (s < r)%R -> (r <= s + lsum pmf l)%R -> exists n, In n l /\ scan pmf l r s = Found n.
Proof.
  intros pmf. induction l as [|x l IH]; intros r s H1 H2; cbn [scan].
  - rewrite lsum_nil in H2. lra.
  - rewrite lsum_cons in H2. destruct (rle_bool r (s + pmf x)) eqn:E; [exists x; split; [left|]; reflexivity|].
    apply rle_false in E. destruct (IH r (s + pmf x)%R E ltac:(lra)) as (n & Hn & H). exists n. split; [right; exact Hn|exact H].
Qed.

Section Cell.
Variables a d e : Z.
Hypothesis Ha : 0 <= a <= e.
Hypothesis Hd : 0 <= d <= e.
Let L := hlo a d e.
Let U := hhi a d.
Let ii := e - a - d.
Let pmf := hyper a d e.

Fixpoint down (n : nat) (nll : Z) : list Z := match n with O => [] | S n' => (nll - 1) :: down n' (nll - 1) end.

Fixpoint ord (k : nat) (nlm nll : Z) (lsm : bool) : list Z :=
  match k with
  | O => if lsm then [] else down (Z.to_nat (nll - L)) nll
  | S k' => (nlm + 1) :: (if lsm then ord k' (nlm + 1) nll true
                          else if nll =? L then ord k' (nlm + 1) nll true
                          else (nll - 1) :: ord k' (nlm + 1) (nll - 1) false)
  end.

Lemma down_in : forall n nll x, In x (down n nll) <-> nll - Z.of_nat n <= x <= nll - 1.
Proof.
  induction n as [|n IH]; intros nll x; cbn [down]; [cbn [In]; lia|]. cbn [In]. rewrite IH. lia.
Qed.
Lemma down_nodup : forall n nll, NoDup (down n nll).
Proof.
  induction n as [|n IH]; intros nll; cbn [down]; constructor; auto. rewrite down_in. lia.
Qed.

Lemma ord_in : forall k nlm nll lsm x, nlm <= U -> k = Z.to_nat (U - nlm) -> L <= nll -> (lsm = true -> nll = L) ->
  (In x (ord k nlm nll lsm) <-> nlm + 1 <= x <= U \/ L <= x <= nll - 1).
Proof.
  induction k as [|k IH]; intros nlm nll lsm x HU Hk Hl Hs; cbn [ord].
  - destruct lsm; [rewrite Hs by reflexivity; cbn [In]; lia|]. rewrite down_in. lia.
  - cbn [In]. destruct lsm; [|destruct (Z.eqb_spec nll L)].
    + rewrite IH by (auto; lia). lia.
    + rewrite IH by (auto; lia). lia.
    + cbn [In]. rewrite IH by (try lia; try discriminate). lia.
Qed.

Lemma ord_nodup : forall k nlm nll lsm, nlm <= U -> k = Z.to_nat (U - nlm) -> L <= nll -> nll <= nlm -> (lsm = true -> nll = L) ->
  NoDup (ord k nlm nll lsm).
Proof.
  induction k as [|k IH]; intros nlm nll lsm HU Hk Hl Hn Hs; cbn [ord].
  - destruct lsm; [constructor|apply down_nodup].
  - constructor.
    + destruct lsm; [|destruct (Z.eqb_spec nll L)].
      * rewrite ord_in by (auto; lia). lia.
      * rewrite ord_in by (auto; lia). lia.
      * cbn [In]. rewrite ord_in by (try lia; try discriminate). lia.
    + destruct lsm; [|destruct (Z.eqb_spec nll L)].
      * apply IH; auto; lia.
      * apply IH; auto; lia.
      * constructor; [rewrite ord_in by (try lia; try discriminate); lia|]. apply IH; try lia; discriminate.
Qed.

(** the order in which the program examines the possible entries, starting at [n0] *)
Definition order (n0 : Z) : list Z := n0 :: ord (Z.to_nat (U - n0)) n0 n0 false.

Lemma order_perm : forall n0, L <= n0 <= U -> Permutation (order n0) (zrange L U).
Proof.
  intros n0 H. apply NoDup_Permutation.
  - unfold order. constructor; [rewrite ord_in by (try lia; try discriminate); lia|]. apply ord_nodup; try lia; discriminate.
  - apply nodup_zrange.
  - intros x. rewrite in_zrange. unfold order. cbn [In]. rewrite ord_in by (try lia; try discriminate). lia.
Qed.

Section Loops.
Variable u : nat -> R.
Notation MM := (ideal u).

Lemma dec_scan : forall n fuel nll y s r, n = Z.to_nat (nll - L) -> (n < fuel)%nat -> L <= nll <= U -> y = pmf nll ->
  match scan pmf (down n nll) r s with
  | Found x => g_dec_loop MM fuel a d ii r true nll y s = COk (DFound x)
  | Exhausted s' => exists y', g_dec_loop MM fuel a d ii r true nll y s = COk (DEnd L y' s' true)
  end.
Proof.
  induction n as [|n IH]; intros fuel nll y s r Hn Hf Hl Hy; (destruct fuel as [|fuel]; [lia|]).
  - cbn [down scan]. exists y. cbn [g_dec_loop]. unfold ideal; cbn [m_chk cbind].
    assert (nll = L) by lia. assert (E : nll * (ii + nll) = 0) by (unfold L, hlo, ii in *; nia). rewrite E. cbn [Z.eqb]. subst nll. reflexivity.
  - cbn [down scan]. cbn [g_dec_loop]. unfold ideal; cbn [m_chk cbind m_div m_mul m_ofZ m_add m_le].
    assert (E : nll * (ii + nll) <> 0) by (unfold L, U, hlo, hhi, ii in *; nia).
    destruct (Z.eqb_spec (nll * (ii + nll)) 0) as [E'|_]; [contradiction|].
    assert (Hy' : (y * IZR (nll * (ii + nll)) / IZR ((d - (nll - 1)) * (a - (nll - 1))))%R = pmf (nll - 1)).
    { subst y. unfold pmf. rewrite hyper_down by (fold L U; lia). reflexivity. }
    rewrite Hy'. destruct (rle_bool r (s + pmf (nll - 1))); [reflexivity|]. cbn [negb].
    apply (IH fuel (nll - 1) (pmf (nll - 1)) (s + pmf (nll - 1))%R r); try lia. reflexivity.
Qed.

Lemma dec_once : forall fuel nll y s r, (0 < fuel)%nat -> L <= nll <= U -> y = pmf nll ->
  g_dec_loop MM fuel a d ii r false nll y s =
  if nll =? L then COk (DEnd nll y s true)
  else if rle_bool r (s + pmf (nll - 1)) then COk (DFound (nll - 1))
  else COk (DEnd (nll - 1) (pmf (nll - 1)) (s + pmf (nll - 1))%R false).
Proof.
  intros fuel nll y s r Hf Hl Hy. destruct fuel as [|fuel]; [lia|].
  cbn [g_dec_loop]. unfold ideal; cbn [m_chk cbind m_div m_mul m_ofZ m_add m_le].
  destruct (Z.eqb_spec nll L) as [E|E].
  - assert (E2 : nll * (ii + nll) = 0) by (unfold L, hlo, ii in *; nia). rewrite E2. reflexivity.
  - assert (E2 : nll * (ii + nll) <> 0) by (unfold L, U, hlo, hhi, ii in *; nia).
    destruct (Z.eqb_spec (nll * (ii + nll)) 0) as [E'|_]; [contradiction|].
    assert (Hy' : (y * IZR (nll * (ii + nll)) / IZR ((d - (nll - 1)) * (a - (nll - 1))))%R = pmf (nll - 1)).
    { subst y. unfold pmf. rewrite hyper_down by (fold L U; lia). reflexivity. }
    rewrite Hy'. reflexivity.
Qed.

Lemma inc_scan : forall k fuel dfuel nlm nll x y s lsm r, k = Z.to_nat (U - nlm) -> (k < fuel)%nat -> a < Z.of_nat dfuel ->
  L <= nlm <= U -> L <= nll <= U -> (lsm = true -> nll = L) -> x = pmf nlm -> y = pmf nll ->
  g_inc_loop MM fuel dfuel a d ii r nlm nll x y s lsm = COk (scan pmf (ord k nlm nll lsm) r s).
Proof.
  assert (HL0 : 0 <= L) by (unfold L, hlo; lia). assert (HUa : U <= a) by (unfold U, hhi; lia).
  induction k as [|k IH]; intros fuel dfuel nlm nll x y s lsm r Hk Hf Hdf Hm Hl Hs Hx Hy; (destruct fuel as [|fuel]; [lia|]).
  - cbn [g_inc_loop ord]. change (m_chk MM) with (fun z : Z => @COk Z z). cbv beta. cbn [cbind].
    assert (E : (d - nlm) * (a - nlm) = 0) by (unfold U, hhi in *; nia). rewrite E. cbn [Z.eqb].
    destruct lsm; [reflexivity|].
    pose proof (dec_scan (Z.to_nat (nll - L)) dfuel nll y s r eq_refl ltac:(lia) Hl Hy) as H.
    destruct (scan pmf (down (Z.to_nat (nll - L)) nll) r s) as [n|s'].
    + rewrite H. reflexivity.
    + destruct H as (y' & ->). reflexivity.
  - cbn [g_inc_loop ord]. change (m_chk MM) with (fun z : Z => @COk Z z). cbv beta. cbn [cbind].
    assert (E : (d - nlm) * (a - nlm) <> 0) by (unfold U, hhi in *; nia).
    destruct (Z.eqb_spec ((d - nlm) * (a - nlm)) 0) as [E'|_]; [contradiction|].
    assert (Hx' : m_div MM (m_mul MM x (m_ofZ MM ((d - nlm) * (a - nlm)))) (m_ofZ MM ((nlm + 1) * (ii + (nlm + 1)))) = pmf (nlm + 1)).
    { subst x. unfold pmf. rewrite hyper_up by (fold L U; lia). reflexivity. }
    rewrite Hx'. change (m_add MM s (pmf (nlm + 1))) with (s + pmf (nlm + 1))%R. change (m_le MM) with rle_bool. cbn [scan].
    destruct (rle_bool r (s + pmf (nlm + 1))); [reflexivity|]. destruct lsm.
    + apply IH; auto; lia.
    + rewrite dec_once by (auto; lia). destruct (Z.eqb_spec nll L) as [EL|EL].
      * cbn [cbind]. apply IH; auto; lia.
      * cbn [scan]. destruct (rle_bool r (s + pmf (nlm + 1) + pmf (nll - 1))); cbn [cbind]; [reflexivity|].
        apply IH; auto; try lia.
Qed.
End Loops.

(** the entry chosen by the variate [r] *)
Definition start : Z := up (IZR (a * d) / IZR e + / 2) - 1.
Definition cell_value (r : R) : Z := match scan pmf (order start) r 0 with Found n => n | Exhausted _ => 0 end.

Lemma start_in : 0 < e -> L <= start <= U.
Proof.
  intros He. unfold start. set (q := (IZR (a * d) / IZR e)%R).
  assert (Hep : (0 < IZR e)%R) by (apply IZR_lt; exact He).
  assert (Hq : (q * IZR e = IZR a * IZR d)%R) by (unfold q; rewrite mult_IZR; field; lra).
  pose proof (archimed (q + / 2)) as [H1 H2].
  assert (Ra : (0 <= IZR a <= IZR e)%R) by (split; apply IZR_le; lia).
  assert (Rd : (0 <= IZR d <= IZR e)%R) by (split; apply IZR_le; lia).
  assert (B1 : (0 <= q)%R) by nra. assert (B2 : (IZR a + IZR d - IZR e <= q)%R) by nra.
  assert (B3 : (q <= IZR a)%R) by nra. assert (B4 : (q <= IZR d)%R) by nra.
  set (w := up (q + / 2)) in *.
  assert (C1 : 0 <= w - 1) by (apply Z.lt_pred_le; apply lt_IZR; unfold Z.pred; rewrite plus_IZR, minus_IZR || idtac; simpl; lra).
  unfold L, U, hlo, hhi.
  assert (C2 : a + d - e <= w - 1).
  { apply Z.lt_pred_le. apply lt_IZR. unfold Z.pred. rewrite plus_IZR, minus_IZR, minus_IZR, plus_IZR. simpl. lra. }
  assert (C3 : w - 1 <= a). { apply Z.lt_succ_r. apply lt_IZR. unfold Z.succ. rewrite plus_IZR, minus_IZR. simpl. lra. }
  assert (C4 : w - 1 <= d). { apply Z.lt_succ_r. apply lt_IZR. unfold Z.succ. rewrite plus_IZR, minus_IZR. simpl. lra. }
  lia.
Qed.

Lemma cell_range : forall r, 0 < e -> (0 < r <= 1)%R -> L <= cell_value r <= U.
Proof.
  intros r He Hr. pose proof (start_in He) as Hs.
  destruct (scan_total pmf (order start) r 0) as (n & Hn & H); [lra| |].
  { rewrite (lsum_perm _ _ _ _ (order_perm start Hs)). unfold L, U, pmf. rewrite hyper_total by assumption. lra. }
  unfold cell_value. rewrite H. apply (Permutation_in _ (order_perm start Hs)) in Hn. apply in_zrange in Hn. exact Hn.
Qed.

(** every possible entry has its own interval of variates, as long as the entry is likely *)
Lemma cell_interval : forall n, 0 < e -> L <= n <= U ->
  exists lo hi : R, (0 <= lo)%R /\ (lo < hi)%R /\ (hi <= 1)%R /\ (hi - lo = pmf n)%R /\
    forall r, (0 < r <= 1)%R -> (cell_value r = n <-> (lo < r <= hi)%R).
Proof.
  intros n He Hn. pose proof (start_in He) as Hs.
  assert (Hp : forall x, In x (order start) -> (0 < pmf x)%R) by (intros; apply hyper_pos).
  assert (Hnd : NoDup (order start)) by (eapply Permutation_NoDup; [apply Permutation_sym, order_perm; exact Hs|apply nodup_zrange]).
  assert (Hin : In n (order start)) by (eapply Permutation_in; [apply Permutation_sym, order_perm; exact Hs|apply in_zrange; exact Hn]).
  assert (Hsum : lsum pmf (order start) = 1%R).
  { rewrite (lsum_perm _ _ _ _ (order_perm start Hs)). unfold L, U, pmf. apply hyper_total; assumption. }
  destruct (scan_found pmf (order start) 1 0 n Hp Hnd ltac:(lra) Hin) as (l1 & l2 & E & _).
  exists (lsum pmf l1), (lsum pmf l1 + pmf n)%R.
  assert (P1 : (0 <= lsum pmf l1)%R) by (apply lsum_nonneg; intros; left; apply hyper_pos).
  assert (P2 : (0 <= lsum pmf l2)%R) by (apply lsum_nonneg; intros; left; apply hyper_pos).
  assert (P3 : (0 < pmf n)%R) by apply hyper_pos.
  rewrite E, lsum_app, lsum_cons in Hsum.
  split; [exact P1|]. split; [lra|]. split; [lra|]. split; [lra|].
  intros r Hr. destruct (scan_found pmf (order start) r 0 n Hp Hnd ltac:(lra) Hin) as (l1' & l2' & E' & H).
  assert (l1' = l1).
  { clear - E E' Hnd. rewrite E in *. clear E. revert l1' E'. induction l1 as [|x l1 IH]; intros l1' E'.
    - destruct l1' as [|y l1']; [reflexivity|]. cbn [app] in E'. injection E' as -> E'. inversion Hnd; subst.
      exfalso. apply H1. apply in_or_app. right. left. reflexivity.
    - destruct l1' as [|y l1']; cbn [app] in E'; injection E' as -> E'; inversion Hnd; subst.
      + exfalso. apply H1. apply in_or_app. right. left. reflexivity.
      + f_equal. apply IH; auto. }
  subst l1'. rewrite Rplus_0_l in H. rewrite <- H. unfold cell_value.
  destruct (scan_total pmf (order start) r 0 ltac:(lra)) as (n' & _ & ->); [rewrite (lsum_perm _ _ _ _ (order_perm start Hs)); unfold L, U, pmf; rewrite hyper_total by assumption; lra|].
  split; [intros ->; reflexivity|intros H0; injection H0; auto].
Qed.
End Cell.

(** the table of log factorials *)
Lemma fact_from_nth : forall u n i x k, 1 <= i -> x = ln (zfact (i - 1)) -> (k < n)%nat ->
  nth_error (g_fact_from (ideal u) i n x) k = Some (ln (zfact (i + Z.of_nat k))).
Proof.
  intros u. induction n as [|n IH]; intros i x k Hi Hx Hk; [lia|]. cbn [g_fact_from].
  assert (E : m_add (ideal u) x (m_log (ideal u) (m_ofZ (ideal u) i)) = ln (zfact i)).
  { unfold ideal; cbn [m_add m_log m_ofZ]. subst x. replace i with (i - 1 + 1) at 3 by lia. rewrite zfact_succ by lia.
    rewrite ln_mult; [|rewrite minus_IZR; apply IZR_le in Hi; simpl; lra|apply zfact_pos].
    rewrite minus_IZR. replace (IZR i - 1 + 1)%R with (IZR i) by lra. lra. }
  rewrite E. destruct k as [|k]; cbn [nth_error]; [rewrite Z.add_0_r; reflexivity|].
  rewrite IH; [do 3 f_equal; lia|lia|f_equal; f_equal; lia|lia].
Qed.

Lemma fact_table_rd : forall u N k, 0 <= k <= N -> rd (g_fact_table (ideal u) N) k = COk (ln (zfact k)).
Proof.
  intros u N k Hk. unfold rd. destruct (Z.ltb_spec k 0); [lia|]. unfold g_fact_table.
  destruct (Z.eq_dec k 0) as [->|Hne].
  - cbn [Z.to_nat nth_error]. f_equal. change (m_zero (ideal u)) with 0%R. unfold zfact. simpl. rewrite ln_1. reflexivity.
  - replace (Z.to_nat k) with (S (Z.to_nat (k - 1))) by lia. cbn [nth_error].
    rewrite fact_from_nth; [do 3 f_equal; lia|lia| |lia].
    change (m_zero (ideal u)) with 0%R. unfold zfact. simpl. rewrite ln_1. reflexivity.
Qed.

Lemma ln_exp_hyper : forall a d e n, exp (ln (zfact a) + ln (zfact (e - a)) + ln (zfact (e - d)) + ln (zfact d) - ln (zfact e)
   - ln (zfact n) - ln (zfact (d - n)) - ln (zfact (a - n)) - ln (zfact (e - a - d + n))) = hyper a d e n.
Proof.
  intros a d e n. unfold hyper, Rminus. rewrite !exp_plus, !exp_Ropp, !exp_ln by apply zfact_pos. unfold Rdiv.
  rewrite !Rinv_mult.
  ring.
Qed.

(** the search of the program, on the first variate *)
Lemma attempts_cell : forall u fuel N a d e r p, 0 <= a <= e -> 0 <= d <= e -> 0 < e -> e <= N -> (0 < r <= 1)%R ->
  g_attempts (ideal u) (S fuel) (g_fact_table (ideal u) N) a (e - a) (e - d) d e (e - a - d) r p = COk (cell_value a d e r, p).
Proof.
  intros u fuel N a d e r p Ha Hd He HN Hr. pose proof (start_in a d e Ha Hd He) as Hs.
  cbn [g_attempts]. change (m_chk (ideal u)) with (fun z : Z => @COk Z z). cbv beta. cbn [cbind].
  change (g_nlm_start (ideal u) (a * d) e) with (start a d e). set (n0 := start a d e) in *.
  unfold hlo, hhi in Hs.
  rewrite !fact_table_rd by lia. cbn [cbind].
  change (m_exp (ideal u)) with exp. change (m_sub (ideal u)) with Rminus. change (m_add (ideal u)) with Rplus.
  replace (a + 1 - 1) with a by lia. replace (d + 1 - 1) with d by lia. replace (n0 + 1 - 1) with n0 by lia.
  replace (d + 1 - n0 - 1) with (d - n0) by lia. replace (a + 1 - n0 - 1) with (a - n0) by lia.
  replace (e - a - d + (n0 + 1) - 1) with (e - a - d + n0) by lia.
  rewrite ln_exp_hyper. change (m_le (ideal u)) with rle_bool.
  destruct (scan_total (hyper a d e) (order a d e n0) r 0) as (n & Hn & Hsc); [lra| |].
  { rewrite (lsum_perm _ _ _ _ (order_perm a d e n0 ltac:(unfold hlo, hhi; lia))). rewrite hyper_total by assumption. lra. }
  assert (Hv : cell_value a d e r = n) by (unfold cell_value; fold n0; rewrite Hsc; reflexivity). rewrite Hv.
  unfold order in Hsc. cbn [scan] in Hsc. rewrite Rplus_0_l in Hsc.
  destruct (rle_bool r (hyper a d e n0)) eqn:E; [injection Hsc as <-; reflexivity|].
  rewrite (inc_scan a d e Ha Hd u (Z.to_nat (hhi a d - n0))); try (unfold hlo, hhi; lia); try reflexivity; try discriminate.
  rewrite Hsc. reflexivity.
Qed.
