(** C106: what the simulations ask numpy for, in floating-point arithmetic. *)
From Coq Require Import ZArith List Bool Reals Lia Lra Psatz Permutation.
Import ListNotations.
From Flocq Require Import Core BinarySingleNaN.
From Verif Require Import F64 Base RSum StatsModel SpecStats StatsProofs LinspaceProofs BrentFModel BrentFProofs Chi2FModel SpecChi2F Chi2FProofs Chi2FProofs2 Chi2FProofs3 PropsChi2F RcontModel RcontProofs SimModel SimFModel SimFProofs.
Open Scope R_scope.

(** [sum_up] adds in some order and grouping *)
Definition sums (sum_up : list f64 -> f64) : Prop := forall l, added l (sum_up l).
(** [p] is within [k] units of 2^-53 (relative) of the real probability [q] *)
Definition prob_near (k : R) (q : R) (p : f64) : Prop := ffin p = true /\ 0 <= f2R p <= 1 /\ Rabs (f2R p - q) <= k * u53 * q.
(** [n] is the total [M] or one less *)
Definition total_or_one_less (M : R) (n : Z) : Prop := IZR n = M \/ IZR n = M - 1.

Lemma whole_IZR : forall x, whole x -> exists z, (0 <= z)%Z /\ f2R x = IZR z.
Proof. intros x [_ (k & E)]. exists (Z.of_nat k). split; [lia|]. rewrite E. apply INR_IZR_INZ. Qed.
Lemma cellsR : forall m, INR (length (fcells m)) = INR (fr m * fc m).
Proof. intros m. unfold fcells. rewrite prod_length. unfold idx. rewrite !seq_length. reflexivity. Qed.
Lemma le8192 : forall n, INR n <= 8192 -> (n <= 8192)%nat.
Proof. intros n H. apply INR_le. replace (INR 8192) with 8192 by (rewrite INR_IZR_INZ; reflexivity). exact H. Qed.

(** one call of [sim_2d_data] on numbers near given ones *)
Lemma one_call : forall A (cs : list A) f g sum_up M Mz, sums sum_up -> (forall c, In c cs -> near3 (f c) (g c)) -> lsum g cs = M -> 1 <= M <= 70368744177664 -> M = IZR Mz ->
  INR (length cs) <= 8192 -> (2 * INR (length cs) + 5) * M <= 9007199254740992 ->
  exists n p, sim_args sum_up (map f cs) 0 = Ok (n, p) /\ total_or_one_less M n /\ Forall2 (fun c x => prob_near (2 * INR (length cs) + 10) (g c / M) x) cs p.
Proof.
  intros A cs f g sum_up M Mz SU NG SG HM EM HK SM. assert (HK' : INR (length cs) <= 1048576) by lra.
  destruct (near_total A cs f g sum_up M SU NG SG HM HK') as [FT BT]. destruct (near_big A cs f g M NG SG HM) as [SP SB]. pose proof (near_nn A cs f g NG) as NN.
  pose proof (near_trunc A cs f g sum_up M SU NG SG HM HK' Mz EM SM) as TR. set (tot := sum_up (map f cs)) in *. pose proof u53_pos as U. pose proof (pos_INR (length cs)) as KP.
  assert (MZ : (1 <= Mz)%Z) by (apply le_IZR; rewrite <- EM; lra).
  assert (TP : 0 < f2R tot). { destruct BT as [B1 _]. eapply Rlt_le_trans; [|exact B1]. apply Rmult_lt_0_compat; [lra|]. assert ((INR (length cs) + 3) * u53 <= 8195 * u53) by (apply Rmult_le_compat_r; lra). unfold u53 in *. lra. }
  unfold sim_args. fold tot. cbn [Z.leb]. change (0 ?= 0)%Z with Eq. cbn match.
  destruct (fle tot fzero) eqn:E; [apply (proj1 (fle_spec tot fzero FT eq_refl)) in E; change (f2R fzero) with 0 in E; lra|]. rewrite FT.
  assert (NT : (0 <= f_trunc tot)%Z) by (destruct TR as [-> | ->]; lia).
  assert (LL : (length (map f cs) <= 8192)%nat) by (rewrite map_length; apply le8192; exact HK).
  pose proof (accepts sum_up (map f cs) (SU _) NN LL SB SP (f_trunc tot) NT) as AC. fold tot in AC. rewrite AC. eexists _, _. split; [reflexivity|]. split.
  - destruct TR as [-> | ->]; [left|right]; rewrite EM; [reflexivity|apply minus_IZR].
  - pose proof (near_prob A cs f g sum_up M SU NG SG HM HK' HK) as NP. fold tot in NP. rewrite map_map.
    unfold numpy_accepts in AC. apply andb_true_iff in AC. destruct AC as [AC _]. apply andb_true_iff in AC. destruct AC as [_ AC].
    assert (PP : forall c, In c cs -> prob_near (2 * INR (length cs) + 10) (g c / M) (fdiv (f c) tot)).
    { intros c Hc. rewrite forallb_forall in AC. specialize (AC (fdiv (f c) tot) ltac:(apply in_map_iff; exists (f c); split; [reflexivity|apply in_map, Hc])). apply andb_true_iff in AC. destruct AC as [A1 A2].
      assert (FP : ffin (fdiv (f c) tot) = true). { destruct (fdiv (f c) tot) as [s|[|]| |s mm ee pf]; [reflexivity|discriminate A1|discriminate A2|discriminate A1|reflexivity]. }
      destruct fone_val as [OV OF]. apply (proj1 (fle_spec fzero _ eq_refl FP)) in A1. apply (proj1 (fle_spec _ _ FP OF)) in A2. rewrite OV in A2. change (f2R fzero) with 0 in A1. split; [exact FP|]. split; [split; assumption|]. apply NP, Hc. }
    clear - PP. clearbody tot. revert PP. generalize (2 * INR (length cs) + 10) as k. intros k PP. induction cs as [|c cs IH]; cbn [map]; [constructor|]. constructor; [apply PP; left; reflexivity|apply IH; intros d Hd; apply PP; right; exact Hd].
Qed.

Lemma fravel_exp : forall add_up m, fravel (fexpected add_up m) = map (fun c => fe (fexpected add_up m) (fst c) (snd c)) (fcells m).
Proof. reflexivity. Qed.

(** multinominal sampling under the independence hypothesis: numpy accepts the probabilities (no spurious "sum(pvals[:-1]) > 1.0"), every
    probability is right up to rounding, and the number of simulated records is the number of records or one less *)
Theorem C106_multinominal : forall sum_up add_up m, sums sum_up -> any_order add_up -> count_table64 m -> has_records (real_table m) ->
  matsum (real_table m) <= 70368744177664 -> INR (fr m * fc m) <= 8192 -> (2 * INR (fr m * fc m) + 5) * matsum (real_table m) <= 9007199254740992 ->
  exists n p, sim_args sum_up (fravel (fexpected add_up m)) 0 = Ok (n, p) /\ total_or_one_less (matsum (real_table m)) n /\
    Forall2 (fun c x => prob_near (2 * INR (fr m * fc m) + 10) (expected (real_table m) (fst c) (snd c) / matsum (real_table m)) x) (list_prod (idx (fr m)) (idx (fc m))) p.
Proof.
  intros sum_up add_up m SU AO CT HR HN HK SM. pose proof (records_one m CT HR) as N1. set (T := real_table m) in *.
  destruct (ftot_val add_up AO m CT ltac:(fold T; lra)) as [WT VT]. fold T in VT. destruct (whole_IZR _ WT) as (Mz & _ & EM). rewrite VT in EM.
  rewrite fravel_exp. rewrite <- (cellsR m) in *.
  destruct (one_call _ (fcells m) (fun c => fe (fexpected add_up m) (fst c) (snd c)) (fun c => expected T (fst c) (snd c)) sum_up (matsum T) Mz SU) as (n & p & H); try assumption; [| |lra|].
  - intros c Hc. apply in_cells in Hc. apply exp_near; try tauto; fold T; lra.
  - apply exp_sum; fold T; lra.
  - exists n, p. exact H.
Qed.

(** product sampling: per row (col_product_multinominal) ... *)
Theorem C106_rows : forall sum_up add_up m i, sums sum_up -> any_order add_up -> count_table64 m -> has_records (real_table m) -> (i < fr m)%nat -> 0 < rowsum (real_table m) i ->
  matsum (real_table m) <= 70368744177664 -> INR (fc m) <= 8192 -> (2 * INR (fc m) + 5) * rowsum (real_table m) i <= 9007199254740992 ->
  exists n p, sim_args sum_up (frow_of (fexpected add_up m) i) 0 = Ok (n, p) /\ total_or_one_less (rowsum (real_table m) i) n /\
    Forall2 (fun j x => prob_near (2 * INR (fc m) + 10) (colsum (real_table m) j / matsum (real_table m)) x) (idx (fc m)) p.
Proof.
  intros sum_up add_up m i SU AO CT HR Hi RP HN HK SM. pose proof (records_one m CT HR) as N1. set (T := real_table m) in *.
  destruct (frow_val add_up AO m CT ltac:(fold T; lra) i Hi) as [WR VR]. fold T in VR. destruct (whole_IZR _ WR) as (Mz & _ & EM). rewrite VR in EM. pose proof (row_le m CT i Hi) as RL. fold T in RL.
  assert (R1 : 1 <= rowsum T i) by (rewrite <- VR; apply whole_pos; [exact WR|rewrite VR; exact RP]).
  assert (LI : INR (length (idx (fc m))) = INR (fc m)) by (unfold idx; rewrite seq_length; reflexivity). rewrite <- LI in *.
  destruct (one_call _ (idx (fc m)) (fe (fexpected add_up m) i) (fun j => expected T i j) sum_up (rowsum T i) Mz SU) as (n & p & H1 & H2 & H3); try assumption; [| |lra|].
  - intros j Hj. apply in_idx in Hj. apply exp_near; try tauto; fold T; lra.
  - apply exp_row_sum; fold T; lra.
  - exists n, p. split; [exact H1|]. split; [exact H2|]. clear - H3 R1 N1. revert H3. generalize (2 * INR (length (idx (fc m))) + 10) as k. intros k H3. induction H3 as [|j x l l' Q _ IH]; constructor; [|exact IH].
    replace (colsum T j / matsum T) with (expected T i j / rowsum T i) by (unfold expected; field; lra). exact Q.
Qed.
(** ... and per column (row_product_multinominal) *)
Theorem C106_cols : forall sum_up add_up m j, sums sum_up -> any_order add_up -> count_table64 m -> has_records (real_table m) -> (j < fc m)%nat -> 0 < colsum (real_table m) j ->
  matsum (real_table m) <= 70368744177664 -> INR (fr m) <= 8192 -> (2 * INR (fr m) + 5) * colsum (real_table m) j <= 9007199254740992 ->
  exists n p, sim_args sum_up (fcol_of (fexpected add_up m) j) 0 = Ok (n, p) /\ total_or_one_less (colsum (real_table m) j) n /\
    Forall2 (fun i x => prob_near (2 * INR (fr m) + 10) (rowsum (real_table m) i / matsum (real_table m)) x) (idx (fr m)) p.
Proof.
  intros sum_up add_up m j SU AO CT HR Hj RP HN HK SM. pose proof (records_one m CT HR) as N1. set (T := real_table m) in *.
  destruct (fcol_val add_up AO m CT ltac:(fold T; lra) j Hj) as [WR VR]. fold T in VR. destruct (whole_IZR _ WR) as (Mz & _ & EM). rewrite VR in EM. pose proof (col_le m CT j Hj) as RL. fold T in RL.
  assert (R1 : 1 <= colsum T j) by (rewrite <- VR; apply whole_pos; [exact WR|rewrite VR; exact RP]).
  assert (LI : INR (length (idx (fr m))) = INR (fr m)) by (unfold idx; rewrite seq_length; reflexivity). rewrite <- LI in *.
  destruct (one_call _ (idx (fr m)) (fun i => fe (fexpected add_up m) i j) (fun i => expected T i j) sum_up (colsum T j) Mz SU) as (n & p & H1 & H2 & H3); try assumption; [| |lra|].
  - intros i Hi. apply in_idx in Hi. apply exp_near; try tauto; fold T; lra.
  - apply exp_col_sum; fold T; lra.
  - exists n, p. split; [exact H1|]. split; [exact H2|]. clear - H3 R1 N1. revert H3. generalize (2 * INR (length (idx (fr m))) + 10) as k. intros k H3. induction H3 as [|i x l l' Q _ IH]; constructor; [|exact IH].
    replace (rowsum T i / matsum T) with (expected T i j / colsum T j) by (unfold expected; field; lra). exact Q.
Qed.
(** the whole product call, rows or columns without empty ones *)
Lemma mapM_all : forall A B (f : A -> res B) (P : A -> B -> Prop) l, (forall a, In a l -> exists b, f a = Ok b /\ P a b) -> exists bs, mapM f l = Ok bs /\ Forall2 P l bs.
Proof.
  intros A B f P l. induction l as [|a l IH]; intros H; [exists []; split; [reflexivity|constructor]|]. destruct (H a (or_introl eq_refl)) as (b & E & Q). destruct IH as (bs & E2 & F); [intros x Hx; apply H; right; exact Hx|].
  exists (b :: bs). split; [cbn [mapM]; rewrite E; cbn; rewrite E2; reflexivity|constructor; assumption].
Qed.
Theorem C106_product : forall sum_up add_up m, sums sum_up -> any_order add_up -> count_table64 m -> has_records (real_table m) ->
  matsum (real_table m) <= 70368744177664 -> INR (fr m * fc m) <= 8192 -> (2 * INR (fr m * fc m) + 5) * matsum (real_table m) <= 9007199254740992 ->
  ((forall i, (i < fr m)%nat -> 0 < rowsum (real_table m) i) -> exists l, product_args sum_up (fexpected add_up m) 1 = Ok l /\ Forall2 (fun i np => total_or_one_less (rowsum (real_table m) i) (fst np)) (idx (fr m)) l) /\
  ((forall j, (j < fc m)%nat -> 0 < colsum (real_table m) j) -> exists l, product_args sum_up (fexpected add_up m) 0 = Ok l /\ Forall2 (fun j np => total_or_one_less (colsum (real_table m) j) (fst np)) (idx (fc m)) l).
Proof.
  intros sum_up add_up m SU AO CT HR HN HK SM. pose proof (records_one m CT HR) as N1. set (T := real_table m) in *. split; intros P; unfold product_args; cbn [Z.eqb Pos.eqb fexpected fr fc]; apply mapM_all; intros a Ha; apply in_seq in Ha; destruct Ha as [_ Ha]; cbn [Nat.add] in Ha.
  - assert (L : INR (fc m) <= INR (fr m * fc m)) by (apply le_INR; nia). pose proof (row_le m CT a Ha) as RL. fold T in RL. pose proof (P a Ha) as PA. pose proof (pos_INR (fc m)).
    destruct (C106_rows sum_up add_up m a SU AO CT HR Ha PA HN ltac:(lra)) as (n & p & H1 & H2 & _). { fold T. eapply Rle_trans; [|exact SM]. apply Rmult_le_compat; lra. }
    exists (n, p). split; [exact H1|exact H2].
  - assert (L : INR (fr m) <= INR (fr m * fc m)) by (apply le_INR; nia). pose proof (col_le m CT a Ha) as RL. fold T in RL. pose proof (P a Ha) as PA. pose proof (pos_INR (fr m)).
    destruct (C106_cols sum_up add_up m a SU AO CT HR Ha PA HN ltac:(lra)) as (n & p & H1 & H2 & _). { fold T. eapply Rle_trans; [|exact SM]. apply Rmult_le_compat; lra. }
    exists (n, p). split; [exact H1|exact H2].
Qed.

(** hypergeometric sampling rounds the totals to the nearest whole number and always gets the true ones *)
Theorem C106_hypergeometric : forall sum_up add_up m, sums sum_up -> any_order add_up -> count_table64 m -> has_records (real_table m) ->
  matsum (real_table m) <= 2147483647 -> INR (fr m * fc m) <= 1000000 ->
  Forall2 (fun i n => IZR n = rowsum (real_table m) i) (idx (fr m)) (patefield_rows sum_up (fexpected add_up m)) /\
  Forall2 (fun j n => IZR n = colsum (real_table m) j) (idx (fc m)) (patefield_cols sum_up (fexpected add_up m)).
Proof.
  intros sum_up add_up m SU AO CT HR HN HK. pose proof (records_one m CT HR) as N1. set (T := real_table m) in *.
  assert (I32 : forall z M, IZR z = M -> 0 <= M <= 2147483647 -> to_int32 z = z). { intros z M E [B1 B2]. rewrite <- E in *. apply le_IZR in B1. apply le_IZR in B2. unfold to_int32. rewrite Z.mod_small by lia. lia. }
  assert (F2 : forall A (P : A -> Z -> Prop) (f : A -> Z) l, (forall a, In a l -> P a (f a)) -> Forall2 P l (map f l)). { intros A P f l. induction l as [|a l IH]; intros H; cbn [map]; [constructor|]. constructor; [apply H; left; reflexivity|apply IH; intros x Hx; apply H; right; exact Hx]. }
  (* a zero total *)
  assert (ZT : forall cs (f : nat -> f64), (forall c, In c cs -> nonneg64 (f c) /\ f2R (f c) = 0) -> INR (length cs) <= 1000000 -> f_rint (sum_up (map f cs)) = 0%Z).
  { intros cs f H L. assert (S0 : lsum f2R (map f cs) = 0) by (rewrite lsum_map; apply lsum_0; intros a Ha; apply (H a Ha)). destruct (added_bounds (map f cs) (sum_up (map f cs)) (SU _)) as [_ B]; [intros x Hx; apply in_map_iff in Hx; destruct Hx as (c & <- & Hc); apply (H c Hc)|rewrite map_length; unfold u53; lra|rewrite S0; apply bpow_ge_0|].
    rewrite S0 in B. unfold f_rint. replace (f2R (sum_up (map f cs))) with (IZR 0) by lra. apply Znearest_imp. replace (IZR 0 - IZR 0) with 0 by ring. rewrite Rabs_R0. lra. }
  split; unfold patefield_rows, patefield_cols; cbn [fexpected fr fc]; apply F2; intros a Ha; apply in_seq in Ha; destruct Ha as [_ Ha]; cbn [Nat.add] in Ha.
  - destruct (frow_val add_up AO m CT ltac:(fold T; lra) a Ha) as [WR VR]. fold T in VR. destruct (whole_IZR _ WR) as (Mz & PZ & EM). rewrite VR in EM. pose proof (row_le m CT a Ha) as RL. fold T in RL.
    assert (NE : forall j, In j (idx (fc m)) -> near3 (fe (fexpected add_up m) a j) (expected T a j)) by (intros j Hj; apply in_idx in Hj; apply exp_near; try tauto; fold T; lra).
    assert (LI : INR (length (idx (fc m))) <= 1000000) by (unfold idx; rewrite seq_length; eapply Rle_trans; [|exact HK]; apply le_INR; nia). assert (P0 : 0 <= rowsum T a) by (rewrite EM; apply IZR_le; exact PZ).
    assert (RI : f_rint (sum_up (frow_of (fexpected add_up m) a)) = Mz).
    { destruct (Req_dec (rowsum T a) 0) as [Z|NZ].
      - assert (Mz = 0%Z) by (apply eq_IZR; lra). subst Mz. apply (ZT (idx (fc m)) (fe (fexpected add_up m) a)); [|exact LI]. intros j Hj. destruct (NE j Hj) as (A1 & A2 & _). split; [exact A1|]. assert (EX : expected T a j = 0) by (unfold expected; rewrite Z; unfold Rdiv; ring). rewrite EX in A2. apply Rabs_le_inv in A2. lra.
      - assert (R1 : 1 <= rowsum T a) by (rewrite <- VR; apply whole_pos; [exact WR|rewrite VR; lra]).
        apply (near_rint _ (idx (fc m)) (fe (fexpected add_up m) a) (fun j => expected T a j) sum_up (rowsum T a) SU NE); try assumption; try lra; [apply exp_row_sum; fold T; lra|]. pose proof (pos_INR (length (idx (fc m)))). apply Rle_trans with (2 * ((2 * 1000000 + 5) * 2147483647)); [|lra]. apply Rmult_le_compat_l; [lra|]. apply Rmult_le_compat; lra. }
    rewrite RI, (I32 Mz (rowsum T a)); [symmetry; exact EM|symmetry; exact EM|lra].
  - destruct (fcol_val add_up AO m CT ltac:(fold T; lra) a Ha) as [WR VR]. fold T in VR. destruct (whole_IZR _ WR) as (Mz & PZ & EM). rewrite VR in EM. pose proof (col_le m CT a Ha) as RL. fold T in RL.
    assert (NE : forall i, In i (idx (fr m)) -> near3 (fe (fexpected add_up m) i a) (expected T i a)) by (intros j Hj; apply in_idx in Hj; apply exp_near; try tauto; fold T; lra).
    assert (LI : INR (length (idx (fr m))) <= 1000000) by (unfold idx; rewrite seq_length; eapply Rle_trans; [|exact HK]; apply le_INR; nia). assert (P0 : 0 <= colsum T a) by (rewrite EM; apply IZR_le; exact PZ).
    assert (RI : f_rint (sum_up (fcol_of (fexpected add_up m) a)) = Mz).
    { destruct (Req_dec (colsum T a) 0) as [Z|NZ].
      - assert (Mz = 0%Z) by (apply eq_IZR; lra). subst Mz. apply (ZT (idx (fr m)) (fun i => fe (fexpected add_up m) i a)); [|exact LI]. intros j Hj. destruct (NE j Hj) as (A1 & A2 & _). split; [exact A1|]. assert (EX : expected T j a = 0) by (unfold expected; rewrite Z; unfold Rdiv; ring). rewrite EX in A2. apply Rabs_le_inv in A2. lra.
      - assert (R1 : 1 <= colsum T a) by (rewrite <- VR; apply whole_pos; [exact WR|rewrite VR; lra]).
        apply (near_rint _ (idx (fr m)) (fun i => fe (fexpected add_up m) i a) (fun i => expected T i a) sum_up (colsum T a) SU NE); try assumption; try lra; [apply exp_col_sum; fold T; lra|]. pose proof (pos_INR (length (idx (fr m)))). apply Rle_trans with (2 * ((2 * 1000000 + 5) * 2147483647)); [|lra]. apply Rmult_le_compat_l; [lra|]. apply Rmult_le_compat; lra. }
    rewrite RI, (I32 Mz (colsum T a)); [symmetry; exact EM|symmetry; exact EM|lra].
Qed.

(** simulating from the table itself (alt_hypothesis) loses no record *)
Theorem C106_counts : forall sum_up m, sums sum_up -> count_table64 m -> has_records (real_table m) -> matsum (real_table m) <= 70368744177664 -> INR (fr m * fc m) <= 8192 ->
  exists n p, sim_args sum_up (fravel m) 0 = Ok (n, p) /\ IZR n = matsum (real_table m).
Proof.
  intros sum_up m SU CT HR HN HK. pose proof (records_one m CT HR) as N1. set (T := real_table m) in *. rewrite <- (cellsR m) in HK.
  assert (W : forall x, In x (fravel m) -> whole x) by (intros x Hx; apply in_map_iff in Hx; destruct Hx as (c & <- & Hc); apply in_cells in Hc; apply CT; tauto).
  assert (E : lsum f2R (fravel m) = matsum T) by (unfold fravel; rewrite lsum_map; unfold fcells; rewrite (lsum_cells (fun i j => f2R (fe m i j))); reflexivity).
  destruct (added_whole (fravel m) (sum_up (fravel m)) (SU _) W ltac:(lra)) as [WS VS]. rewrite E in VS. destruct (whole_IZR _ WS) as (z & PZ & EZ). pose proof (proj1 WS) as FT.
  unfold sim_args. cbn [Z.leb]. change (0 ?= 0)%Z with Eq. cbn match. set (tot := sum_up (fravel m)) in *.
  destruct (fle tot fzero) eqn:EL; [apply (proj1 (fle_spec tot fzero FT eq_refl)) in EL; change (f2R fzero) with 0 in EL; lra|]. rewrite FT.
  assert (TR : f_trunc tot = z) by (rewrite Btrunc_spec by exact FT; rewrite EZ; apply Ztrunc_IZR). rewrite TR.
  pose proof (accepts sum_up (fravel m) (SU _) (fun x Hx => whole_nonneg x (W x Hx))) as AC. fold tot in AC. rewrite AC; try assumption.
  - eexists _, _. split; [reflexivity|]. rewrite <- EZ. exact VS.
  - unfold fravel. rewrite map_length. apply le8192. exact HK.
  - rewrite E. apply Rle_trans with (b2 50); [change (b2 50) with 1125899906842624; lra|apply bpow_le; lia].
  - rewrite E. lra.
Qed.

(** ** the lost record is real *)
Lemma left_to_right_ok : sums left_to_right.
Proof.
  intros l. unfold left_to_right. assert (G : forall l pre acc, added pre acc -> added (pre ++ l) (fold_left fplus l acc)).
  { clear l. induction l as [|x l IH]; intros pre acc H; cbn [fold_left]; [rewrite app_nil_r; exact H|]. replace (pre ++ x :: l) with ((pre ++ [x]) ++ l) by (rewrite <- app_assoc; reflexivity). apply IH. apply added_app; [exact H|constructor]. }
  apply (G l [] fzero). constructor.
Qed.
Definition ltr (k : site) : list f64 -> f64 := left_to_right.
Lemma ltr_ok : any_order ltr. Proof. intros k l. apply left_to_right_ok. Qed.
Definition t106 : list (list Z) := [[1; 1]; [3; 1]]%Z.
(** a table of 6 records in two rows and two columns: summed from left to right, 5 records are simulated *)
Theorem C106_one_record_lost : count_table64 (ftab t106 2) /\ matsum (real_table (ftab t106 2)) = 6 /\
  exists p, sim_args left_to_right (fravel (fexpected ltr (ftab t106 2))) 0 = Ok (5%Z, p).
Proof.
  destruct (ftab_ok t106 2 eq_refl eq_refl) as [A B]. split; [exact A|]. split.
  - rewrite (matsum_eq _ _ B). unfold matsum, rowsum. cbn. lra.
  - destruct (sim_args left_to_right (fravel (fexpected ltr (ftab t106 2))) 0) as [[n p]|e] eqn:E.
    + assert (X : match sim_args left_to_right (fravel (fexpected ltr (ftab t106 2))) 0 with Ok (n, _) => Z.eqb n 5 | Raise _ => false end = true) by (vm_compute; reflexivity). rewrite E in X. apply Z.eqb_eq in X. subst n. exists p. reflexivity.
    + exfalso. assert (X : match sim_args left_to_right (fravel (fexpected ltr (ftab t106 2))) 0 with Ok (n, _) => Z.eqb n 5 | Raise _ => false end = true) by (vm_compute; reflexivity). rewrite E in X. discriminate X.
Qed.
(** six records with six different values in both variables, product sampling: every row is drawn with 0 trials, and the statistic of a
    table with these row totals raises *)
Definition t106_6 : list (list Z) := map (fun i => map (fun j => if Nat.eqb i j then 1 else 0)%Z (seq 0 6)) (seq 0 6).
Theorem C106_all_records_lost : count_table64 (ftab t106_6 6) /\ matsum (real_table (ftab t106_6 6)) = 6 /\
  exists l, product_args left_to_right (fexpected ltr (ftab t106_6 6)) 1 = Ok l /\ map fst l = [0; 0; 0; 0; 0; 0]%Z /\
    forall add_up m, count_table64 m -> fr m = 6%nat -> (forall i, (i < 6)%nat -> rowsum (real_table m) i = IZR (fst (nth i l (0%Z, [])))) -> get_chi2_64 add_up m = Raise ValueError.
Proof.
  destruct (ftab_ok t106_6 6 eq_refl eq_refl) as [A B]. split; [exact A|]. split.
  - rewrite (matsum_eq _ _ B). unfold matsum, rowsum. cbn. lra.
  - assert (X : match product_args left_to_right (fexpected ltr (ftab t106_6 6)) 1 with Ok l => forallb (fun z => Z.eqb z 0) (map fst l) && Nat.eqb (length l) 6 | Raise _ => false end = true) by (vm_compute; reflexivity).
    destruct (product_args left_to_right (fexpected ltr (ftab t106_6 6)) 1) as [l|e] eqn:E; [|discriminate X]. apply andb_true_iff in X. destruct X as [X1 X2]. apply Nat.eqb_eq in X2.
    exists l. split; [reflexivity|]. assert (Z0 : map fst l = [0; 0; 0; 0; 0; 0]%Z).
    { do 6 (destruct l as [|[? ?] l]; [discriminate X2|]). destruct l; [|discriminate X2]. cbn [map fst forallb] in *. repeat (apply andb_true_iff in X1; destruct X1 as [X0 X1]; apply Z.eqb_eq in X0; subst). reflexivity. }
    split; [exact Z0|]. intros add_up m CT FR RS. apply C88_no_records; [exact CT|]. intros (i & j & Hi & Hj & NZ). cbn in Hi, Hj, NZ. rewrite FR in Hi. apply NZ.
    assert (R0 : rowsum (real_table m) i = 0). { rewrite (RS i Hi). rewrite <- (map_nth fst). rewrite Z0. do 6 (destruct i as [|i]; [reflexivity|]). lia. }
    unfold rowsum in R0. apply (lsum_zero_elem _ (fun j => el (real_table m) i j) _ j) in R0; [exact R0| |apply in_seq; cbn; lia]. intros k Hk. apply in_seq in Hk. apply whole_nonneg, CT; [rewrite FR; exact Hi|cbn in Hk; lia].
Qed.

(** the hypotheses are met by the table of the example *)
Example C106_hyps : exists n p, sim_args left_to_right (fravel (fexpected ltr (ftab t106 2))) 0 = Ok (n, p) /\ total_or_one_less 6 n /\ length p = 4%nat.
Proof.
  destruct C106_one_record_lost as (A & B & p0 & E0). destruct (C106_multinominal left_to_right ltr (ftab t106 2) left_to_right_ok ltr_ok A) as (n & p & H1 & H2 & H3).
  - exists 0%nat, 0%nat. split; [cbn; lia|]. split; [cbn; lia|]. change (f2R (ofZ 1) <> 0). destruct (ofZ_spec 1 ltac:(lia)) as [V _]. rewrite V. lra.
  - rewrite B. lra.
  - cbn. lra.
  - rewrite B. cbn. lra.
  - exists n, p. split; [exact H1|]. split; [rewrite B in H2; exact H2|]. clear - H3. assert (F : forall A B (P : A -> B -> Prop) l l', Forall2 P l l' -> length l = length l') by (intros A B P l l' H; induction H; cbn; congruence). apply F in H3. rewrite <- H3. reflexivity.
Qed.
Example C106_other_hyps : (exists l, product_args left_to_right (fexpected ltr (ftab t106 2)) 1 = Ok l) /\ (exists l, product_args left_to_right (fexpected ltr (ftab t106 2)) 0 = Ok l) /\
  map IZR (patefield_rows left_to_right (fexpected ltr (ftab t106 2))) = [2; 4] /\ (exists n p, sim_args left_to_right (fravel (ftab t106 2)) 0 = Ok (n, p) /\ IZR n = 6).
Proof.
  destruct (ftab_ok t106 2 eq_refl eq_refl) as [A B]. destruct C106_one_record_lost as (_ & N6 & _).
  assert (R0 : rowsum (real_table (ftab t106 2)) 0 = 2) by (rewrite (rowsum_eq _ _ 0 B ltac:(cbn; lia)); unfold rowsum; cbn; lra). assert (R1 : rowsum (real_table (ftab t106 2)) 1 = 4) by (rewrite (rowsum_eq _ _ 1 B ltac:(cbn; lia)); unfold rowsum; cbn; lra).
  assert (C0 : colsum (real_table (ftab t106 2)) 0 = 4) by (rewrite (colsum_eq _ _ 0 B ltac:(cbn; lia)); unfold colsum; cbn; lra). assert (C1 : colsum (real_table (ftab t106 2)) 1 = 2) by (rewrite (colsum_eq _ _ 1 B ltac:(cbn; lia)); unfold colsum; cbn; lra).
  assert (HR : has_records (real_table (ftab t106 2))) by (exists 0%nat, 0%nat; split; [cbn; lia|]; split; [cbn; lia|]; change (f2R (ofZ 1) <> 0); destruct (ofZ_spec 1 ltac:(lia)) as [V _]; rewrite V; lra).
  assert (KB : INR (fr (ftab t106 2) * fc (ftab t106 2)) = 4) by (cbn; lra).
  destruct (C106_product left_to_right ltr (ftab t106 2) left_to_right_ok ltr_ok A HR ltac:(rewrite N6; lra) ltac:(rewrite KB; lra) ltac:(rewrite N6, KB; lra)) as [P1 P2].
  split; [destruct P1 as (l & E & _); [intros [|[|i]] Hi; [rewrite R0; lra|rewrite R1; lra|cbn in Hi; lia]|exists l; exact E]|].
  split; [destruct P2 as (l & E & _); [intros [|[|i]] Hi; [rewrite C0; lra|rewrite C1; lra|cbn in Hi; lia]|exists l; exact E]|].
  split.
  - destruct (C106_hypergeometric left_to_right ltr (ftab t106 2) left_to_right_ok ltr_ok A HR ltac:(rewrite N6; lra) ltac:(rewrite KB; lra)) as [H _]. change (idx (fr (ftab t106 2))) with [0; 1]%nat in H. remember (patefield_rows left_to_right (fexpected ltr (ftab t106 2))) as pr eqn:EP. clear EP. inversion H as [|? ? ? ? Q1 H']. inversion H' as [|? ? ? ? Q2 H'']. inversion H''. subst. cbn [map]. rewrite Q1, Q2, R0, R1. reflexivity.
  - destruct (C106_counts left_to_right (ftab t106 2) left_to_right_ok A HR ltac:(rewrite N6; lra) ltac:(rewrite KB; lra)) as (n & p & E1 & E2). exists n, p. split; [exact E1|]. rewrite E2. exact N6.
Qed.

(** the default method never simulates an empty table: at least one record is drawn, so the statistic of the simulated table exists *)
Theorem C106_never_empty : forall sum_up add_up m, sums sum_up -> any_order add_up -> count_table64 m -> has_records (real_table m) ->
  matsum (real_table m) <= 70368744177664 -> INR (fr m * fc m) <= 8192 -> (2 * INR (fr m * fc m) + 5) * matsum (real_table m) <= 9007199254740992 ->
  exists n p, sim_args sum_up (fravel (fexpected add_up m)) 0 = Ok (n, p) /\ (1 <= n)%Z /\
    forall add_up' m', count_table64 m' -> matsum (real_table m') = IZR n -> any_order add_up' -> INR (fr m' * fc m') <= 8192 -> exists c, get_chi2_64 add_up' m' = Ok c.
Proof.
  intros sum_up add_up m SU AO CT HR HN HK SM. pose proof (records_one m CT HR) as N1.
  destruct (C106_multinominal sum_up add_up m SU AO CT HR HN HK SM) as (n & p & H1 & H2 & _). exists n, p. split; [exact H1|].
  assert (NB : (1 <= n)%Z).
  { destruct (ftot_val add_up AO m CT ltac:(lra)) as [WT VT]. destruct (whole_IZR _ WT) as (Mz & _ & EM). rewrite VT in EM.
    destruct H2 as [E|E]; [apply le_IZR; lra|]. assert (E' : n = (Mz - 1)%Z) by (apply eq_IZR; rewrite minus_IZR; lra). assert (MZ : (1 <= Mz)%Z) by (apply le_IZR; lra). destruct (Z.eq_dec Mz 1) as [M1|M1]; [exfalso|lia].
    rewrite M1 in EM. set (T := real_table m) in *. set (hist := fravel (fexpected add_up m)) in *.
    assert (W : forall x, In x hist -> whole x).
    { intros x Hx. apply in_map_iff in Hx. destruct Hx as (c & <- & Hc). apply in_cells in Hc. cbn [fexpected fr fc] in Hc. destruct Hc as [Hi Hj]. cbn [fexpected fe]. unfold Chi2FModel.fexp.
      destruct (frow_val add_up AO m CT ltac:(fold T; lra) (fst c) Hi) as [[FR (kr & ER)] VR]. destruct (fcol_val add_up AO m CT ltac:(fold T; lra) (snd c) Hj) as [[FC (kc & EC)] VC].
      pose proof (row_le m CT (fst c) Hi) as RL. pose proof (col_le m CT (snd c) Hj) as CL. fold T in RL, CL, VR, VC.
      assert (KR : (kr <= 1)%nat) by (apply INR_le; change (INR 1) with 1; lra). assert (KC : (kc <= 1)%nat) by (apply INR_le; change (INR 1) with 1; lra).
      set (fR := frow add_up m (fst c)) in *. set (fC := fcol add_up m (snd c)) in *. set (fT := ftot add_up m) in *.
      assert (PE : f2R fR * f2R fC = IZR (Z.of_nat (kr * kc))) by (rewrite ER, EC, <- INR_IZR_INZ, mult_INR; reflexivity). assert (KK : (0 <= Z.of_nat (kr * kc) <= 1)%Z) by nia.
      assert (B1 : Rabs (IZR (Z.of_nat (kr * kc))) <= b2 1). { rewrite Rabs_pos_eq by (apply IZR_le; lia). apply Rle_trans with 1; [apply IZR_le; lia|]. change (b2 1) with 2. lra. }
      destruct (fmult_spec fR fC 1 FR FC ltac:(lia)) as [V1 F1]; [rewrite PE; exact B1|]. rewrite PE, rnd_id in V1 by (apply fmt_IZR; lia).
      assert (TV : f2R fT = 1) by (rewrite VT; exact EM).
      destruct (fdiv_spec (fmult fR fC) fT 1 F1 ltac:(lra) ltac:(lia)) as [V2 F2]; [rewrite TV, V1; unfold Rdiv; rewrite Rinv_1, Rmult_1_r; exact B1|].
      rewrite TV, V1 in V2. unfold Rdiv in V2. rewrite Rinv_1, Rmult_1_r, rnd_id in V2 by (apply fmt_IZR; lia). split; [exact F2|]. exists (kr * kc)%nat. rewrite V2, INR_IZR_INZ. reflexivity. }
    assert (NEAR : forall c, In c (fcells m) -> near3 (fe (fexpected add_up m) (fst c) (snd c)) (expected T (fst c) (snd c))) by (intros c Hc; apply in_cells in Hc; apply exp_near; try tauto; fold T; lra).
    pose proof (near_S _ (fcells m) (fun c => fe (fexpected add_up m) (fst c) (snd c)) (fun c => expected T (fst c) (snd c)) (matsum T) NEAR ltac:(apply exp_sum; fold T; lra)) as SE.
    change (map (fun c => fe (fexpected add_up m) (fst c) (snd c)) (fcells m)) with hist in SE. pose proof u53_pos as U. apply Rabs_le_inv in SE. rewrite EM in SE.
    destruct (added_whole hist (sum_up hist) (SU _) W ltac:(lra)) as [[FS (k & EK)] VS]. assert (K1 : k = 1%nat).
    { assert (B : 1 / 2 < INR k < 3 / 2) by lra. destruct k as [|[|k]]; [change (INR 0) with 0 in B; lra|reflexivity|]. rewrite !S_INR in B. pose proof (pos_INR k). lra. }
    subst k. change (INR 1) with 1 in EK. unfold sim_args in H1. cbn [Z.leb] in H1. change (0 ?= 0)%Z with Eq in H1. cbn match in H1. rewrite FS in H1.
    assert (TR : f_trunc (sum_up hist) = 1%Z) by (rewrite Btrunc_spec by exact FS; rewrite EK; apply (Ztrunc_IZR 1)). rewrite TR in H1.
    destruct (fle (sum_up hist) fzero); [discriminate H1|]. destruct (numpy_accepts 1 _); [|discriminate H1]. injection H1 as E1 _. lia. }
  split; [exact NB|]. intros add_up' m' CT' MS AO' HK'.
  assert (N' : 1 <= matsum (real_table m')) by (rewrite MS; apply IZR_le in NB; exact NB). assert (HN' : matsum (real_table m') <= 70368744177664) by (destruct H2 as [E|E]; lra).
  destruct (C88_chi2_rounding add_up' m' AO' CT') as (c & chi & E & _); [|split; [exact HN'|cbn; lra]|exists c; exact E].
  destruct (Classical_Prop.classic (has_records (real_table m'))) as [H|H]; [exact H|exfalso]. assert (Z : matsum (real_table m') = 0); [|lra]. unfold matsum, rowsum. apply lsum_0. intros i Hi. apply lsum_0. intros j Hj. apply in_seq in Hi. apply in_seq in Hj.
  destruct (Req_dec (el (real_table m') i j) 0) as [Q|Q]; [exact Q|exfalso; apply H; exists i, j; repeat split; [lia|lia|exact Q]].
Qed.
(** whatever the numbers, the only exception before the draw is ValueError; an unknown axis raises NotImplementedError *)
Theorem C106_only_value_error : forall sum_up hist ndata e, sim_args sum_up hist ndata = Raise e -> e = ValueError.
Proof. intros sum_up hist ndata e. unfold sim_args. destruct (ndata <=? 0)%Z; [|destruct (numpy_accepts _ _); congruence]. destruct (fle _ _); [congruence|]. destruct (ffin _); [|congruence]. destruct (numpy_accepts _ _); congruence. Qed.
Theorem C106_unknown_axis : forall sum_up m axis, axis <> 0%Z -> axis <> 1%Z -> product_args sum_up m axis = Raise NotImplementedError.
Proof. intros sum_up m axis H0 H1. unfold product_args. destruct (Z.eqb_spec axis 1); [contradiction|]. destruct (Z.eqb_spec axis 0); [contradiction|]. reflexivity. Qed.
(** an empty row or column, or a table without records, raises ValueError in the sampling that draws per row, per column or at once *)
Theorem C106_zero_total : forall sum_up hist, sums sum_up -> (length hist <= 8192)%nat -> (forall x, In x hist -> nonneg64 x /\ f2R x = 0) -> sim_args sum_up hist 0 = Raise ValueError.
Proof.
  intros sum_up hist SU L Z. assert (S0 : lsum f2R hist = 0) by (apply lsum_0; intros a Ha; apply (Z a Ha)). pose proof u53_pos as U.
  assert (HL : INR (length hist) <= 8192) by (replace 8192 with (INR 8192) by (rewrite INR_IZR_INZ; reflexivity); apply le_INR; exact L).
  destruct (added_bounds hist (sum_up hist) (SU _)) as [F B]; [intros x Hx; apply (Z x Hx)|unfold u53; lra|rewrite S0; apply bpow_ge_0|]. rewrite S0 in B.
  unfold sim_args. cbn [Z.leb]. change (0 ?= 0)%Z with Eq. cbn match. replace (fle (sum_up hist) fzero) with true; [reflexivity|]. symmetry. apply fle_spec; [exact F|reflexivity|]. change (f2R fzero) with 0. lra.
Qed.
