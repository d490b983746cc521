(** C81: phik with the true bivariate normal distribution in place of scipy's mvnun, and Brent's method as the solver. *)
From Coq Require Import ZArith List Bool Reals Lra Lia Psatz.
From Coquelicot Require Import Coquelicot.
From Verif Require Import Base RSum StatsModel SpecStats StatsProofs SpecSolver BrentModel BrentProofs BivModel SpecBiv BivProofs BivProofs2 PropsStats PropsBiv PropsBiv2 PhikModel SpecPhik PropsPhik2
  Gauss SpecBvn CdfProofs BvnProofs BvnProofs2 BvnProofs3 BvnProofs4 BvnProofs5.
Import ListNotations.
Open Scope R_scope.

(** [bvn_prob] is a probability: between 0 and 1, additive, and its margins are standard normal *)
Lemma inner_range : forall r x c d, -1 < r < 1 -> c <= d -> 0 <= cH r d x - cH r c x <= gphi x.
Proof.
  intros r x c d H L. pose proof (sig_pos r H) as S. unfold cH. pose proof (gphi_pos x) as P.
  pose proof (gPhi_range ((d - r * x) / sig r)) as A. pose proof (gPhi_range ((c - r * x) / sig r)) as B.
  assert (M : gPhi ((c - r * x) / sig r) <= gPhi ((d - r * x) / sig r)).
  { destruct L as [L| ->]; [|lra]. left. apply gPhi_incr. apply Rmult_lt_compat_r; [apply Rinv_0_lt_compat; exact S|lra]. }
  nra.
Qed.
Lemma prob_inner : forall r a c b d, -1 < r < 1 -> bvn_prob r a c b d = RInt (fun x => cH r d x - cH r c x) a b.
Proof.
  intros r a c b d H. rewrite prob_cJ by exact H. unfold cJ. symmetry.
  exact (RInt_minus (V := R_CompleteNormedModule) (fun x => cH r d x) (fun x => cH r c x) a b (ex_cH r d a b) (ex_cH r c a b)).
Qed.
Lemma ex_inner : forall r a c b d, ex_RInt (fun x => cH r d x - cH r c x) a b.
Proof. intros r a c b d. apply (ex_RInt_minus (V := R_CompleteNormedModule)); apply ex_cH. Qed.
Lemma prob_margin_le : forall r a c b d, -1 < r < 1 -> a <= b -> c <= d -> 0 <= bvn_prob r a c b d <= gPhi b - gPhi a.
Proof.
  intros r a c b d H L1 L2. rewrite (prob_inner r a c b d H). split.
  - apply RInt_ge_0; [exact L1|apply ex_inner|]. intros x _. apply inner_range; assumption.
  - rewrite <- gphi_int. apply RInt_le; [exact L1|apply ex_inner|apply ex_gphi|]. intros x _. apply inner_range; assumption.
Qed.
Lemma gPhi_le : forall a b, a <= b -> gPhi a <= gPhi b.
Proof. intros a b [L| ->]; [left; apply gPhi_incr; exact L|lra]. Qed.

Theorem C81_probability : forall rho lx ly ux uy, -1 <= rho <= 1 -> lx <= ux -> ly <= uy ->
  0 <= bvn_prob rho lx ly ux uy <= 1 /\
  (-1 < rho < 1 -> forall m, bvn_prob rho lx ly m uy + bvn_prob rho m ly ux uy = bvn_prob rho lx ly ux uy) /\
  (-1 < rho < 1 -> forall m, bvn_prob rho lx ly ux m + bvn_prob rho lx m ux uy = bvn_prob rho lx ly ux uy).
Proof.
  intros rho lx ly ux uy H L1 L2.
  assert (AX : -1 < rho < 1 -> forall a c b d m, bvn_prob rho a c m d + bvn_prob rho m c b d = bvn_prob rho a c b d).
  { intros I a c b d m. rewrite !prob_inner by exact I. apply (RInt_Chasles (V := R_CompleteNormedModule) (fun x => cH rho d x - cH rho c x) a m b); apply ex_inner. }
  split; [|split].
  - assert (B : forall a b, a <= b -> 0 <= gPhi b - gPhi a <= 1) by (intros a b L; pose proof (gPhi_le a b L); pose proof (gPhi_range a); pose proof (gPhi_range b); lra).
    destruct (Rlt_dec (rho ^ 2) 1) as [I|N].
    + apply inside in I. pose proof (prob_margin_le rho lx ly ux uy I L1 L2). pose proof (B lx ux L1). lra.
    + assert (O : forall a b c d, 0 <= overlap_mass a b c d <= 1).
      { intros a b c d. unfold overlap_mass. destruct (Rlt_dec _ _) as [L|_]; [|lra]. rewrite normal_mass_Phi. apply B. lra. }
      unfold bvn_prob. destruct (Rlt_dec (rho ^ 2) 1); [contradiction|]. destruct (Req_EM_T rho 1); [apply O|]. destruct (Req_EM_T rho (-1)); [apply O|lra].
  - intros I m. apply AX. exact I.
  - intros I m. rewrite (prob_swap rho lx ly ux m), (prob_swap rho lx m ux uy), (prob_swap rho lx ly ux uy). apply AX. exact I.
Qed.

Lemma dens_le : forall r q x y, Rabs r <= q -> q < 1 -> bvn_density r x y <= gphi x / sig q.
Proof.
  intros r q x y H Q. assert (R1 : -1 < r < 1) by (apply Rabs_le_between in H; lra). assert (Q0 : 0 <= q) by (pose proof (Rabs_pos r); lra).
  rewrite (dens_factor r x y R1). pose proof (sig_pos r R1). pose proof (sig_pos q ltac:(lra)).
  assert (S : sig q <= sig r).
  { unfold sig. apply sqrt_le_1_alt. assert (r ^ 2 <= q ^ 2); [|lra]. rewrite <- (pow2_abs r). pose proof (Rabs_pos r). nra. }
  pose proof (gphi_pos x). pose proof (gphi_le1 ((y - r * x) / sig r)). pose proof (gphi_pos ((y - r * x) / sig r)).
  unfold Rdiv. apply Rmult_le_compat_l; [lra|].
  assert (/ sig r <= / sig q) by (apply Rinv_le_contravar; lra). assert (0 < / sig r) by (apply Rinv_0_lt_compat; lra).
  replace (gphi ((y - r * x) * / sig r)) with (gphi ((y - r * x) / sig r)) by reflexivity. nra.
Qed.

Theorem C81_margins : forall rho ly uy eps, -1 < rho < 1 -> ly <= uy -> 0 < eps ->
  exists K, 0 < K /\ forall k, K <= k -> Rabs (bvn_prob rho (- k) ly k uy - normal_mass ly uy) < eps.
Proof.
  intros rho c d eps H L He. rewrite normal_mass_Phi. set (q := Rabs rho). assert (Q : 0 <= q < 1) by (unfold q; split; [apply Rabs_pos|apply Rabs_def1; lra]).
  pose proof (sig_pos q ltac:(lra)) as S.
  set (e := Rmin (eps / 4) (eps * sig q / 16)). assert (E : 0 < e) by (apply Rmin_pos; [lra|apply Rdiv_lt_0_compat; [nra|lra]]).
  destruct (gphi_vanish e E) as (K & K0 & KV). exists K. split; [exact K0|]. intros k Hk.
  assert (T : 1 - gPhi k <= e) by (pose proof (gPhi_tail_weak k ltac:(lra)); pose proof (KV k Hk); lra).
  assert (G : gphi k <= e).
  { unfold gphi. pose proof sqrt2pi_bounds as [P _]. pose proof (KV k Hk) as V. apply Rle_trans with (exp (- k ^ 2 / 2)); [|exact V].
    apply Rmult_le_reg_r with (sqrt (2 * PI)); [lra|]. unfold Rdiv at 1. rewrite Rmult_assoc, Rinv_l by lra. pose proof (exp_pos (- k ^ 2 / 2)). nra. }
  pose proof (Rmin_l (eps / 4) (eps * sig q / 16)) as M1. pose proof (Rmin_r (eps / 4) (eps * sig q / 16)) as M2. fold e in M1, M2.
  assert (D : forall y r, Rabs r <= q -> 0 <= bvn_density r k y <= eps / 16 /\ 0 <= bvn_density r (- k) y <= eps / 16).
  { intros y r R. assert (R1 : -1 < r < 1) by (apply Rabs_le_between in R; lra).
    assert (Z : gphi k / sig q <= eps / 16).
    { apply Rmult_le_reg_r with (sig q); [exact S|]. unfold Rdiv at 1. rewrite Rmult_assoc, Rinv_l by lra. lra. }
    assert (GO : gphi (- k) = gphi k) by (unfold gphi; replace (- (- k) ^ 2 / 2) with (- k ^ 2 / 2) by field; reflexivity).
    pose proof (dens_le r q k y R ltac:(lra)). pose proof (dens_le r q (- k) y R ltac:(lra)). rewrite GO in *. pose proof (dens_pos r k y R1). pose proof (dens_pos r (- k) y R1). lra. }
  assert (V : Rabs (bvn_prob rho (- k) c k d - bvn_prob 0 (- k) c k d) <= eps / 4).
  { destruct (MVT_gen (fun r => bvn_prob r (- k) c k d) 0 rho (fun r => corner r (- k) c k d)) as (z & Z & EQ).
    - intros t Ht. apply prob_derive. revert Ht. unfold Rmin, Rmax. repeat destruct (Rle_dec _ _); lra.
    - intros t Ht. apply derivable_continuous_pt. exists (corner t (- k) c k d). apply is_derive_Reals. apply prob_derive. revert Ht. unfold Rmin, Rmax. repeat destruct (Rle_dec _ _); lra.
    - rewrite EQ, Rminus_0_r, Rabs_mult. assert (ZQ : Rabs z <= q) by (unfold q; revert Z; unfold Rmin, Rmax, Rabs; repeat destruct (Rle_dec _ _); repeat destruct (Rcase_abs _); lra).
      fold q. pose proof (D c z ZQ) as DC. pose proof (D d z ZQ) as DD.
      assert (B : Rabs (corner z (- k) c k d) <= eps / 4) by (apply Rabs_le; unfold corner; lra). pose proof (Rabs_pos (corner z (- k) c k d)). nra. }
  rewrite prob_0, gPhi_opp in V. pose proof (gPhi_le c d L). pose proof (gPhi_range c). pose proof (gPhi_range d). pose proof (gPhi_range k).
  apply Rabs_le_between in V. apply Rabs_def1; nra.
Qed.

(** grids on which the binned chi2 is proved to grow strictly: as many bins on one axis as on the other, or two bins on one of them *)
Lemma grid_regular : forall nx ny, (1 <= nx)%nat -> (1 <= ny)%nat -> nx = ny \/ Nat.min nx ny = 2%nat -> chi2_regular bvn_prob (unit_edges nx) (unit_edges ny).
Proof.
  intros nx ny Hx Hy [E|E].
  - subst ny. apply square_regular. exact Hx.
  - destruct (Nat.min_spec nx ny) as [[A B]|[A B]]; rewrite B in E; subst.
    + apply two_regular. lia.
    + apply two_regular_swap. lia.
Qed.

(** the contract assumed of mvnun throughout (C20-C30) holds; the binned chi2 is continuous in the correlation for every grid, and on a square
    grid and on one with two bins on one axis it grows strictly *)
Theorem C81_contract : mvn_ok bvn_prob /\
  (forall nx ny, continuous_on (binned_chi2 bvn_prob (unit_edges nx) (unit_edges ny)) 0 1) /\
  (forall nx ny, (1 <= nx)%nat -> (1 <= ny)%nat -> nx = ny \/ Nat.min nx ny = 2%nat ->
     forall a b, 0 <= a -> a < b -> b <= 1 -> binned_chi2 bvn_prob (unit_edges nx) (unit_edges ny) a < binned_chi2 bvn_prob (unit_edges nx) (unit_edges ny) b).
Proof.
  split; [exact bvn_mvn_ok|]. split.
  - intros nx ny. apply bvn_chi2_cont; apply unit_edges_rising.
  - intros nx ny Hx Hy E. apply (grid_regular nx ny Hx Hy E).
Qed.

(** on every grid the answer of phik_from_chi2 is within the tolerance of a correlation whose chi2 is the given one *)
Theorem C81_solution : forall bq chi2 n nx ny pedestal v, root_finder_ok bq -> 0 < n -> (2 <= nx)%Z -> (2 <= ny)%Z -> 0 <= pedestal -> pedestal < chi2 -> chi2 < n * IZR (Z.min (nx - 1) (ny - 1)) ->
  phik_from_chi2 bvn_prob bq chi2 n nx ny None None pedestal = Ok v ->
  exists rho, 0 < rho < 1 /\ chi2_from_phik bvn_prob rho n 0 None None None None pedestal nx ny = Ok chi2 /\ Rabs (v - rho) <= 101 / 10 ^ 7.
Proof.
  intros bq chi2 n nx ny pedestal v HB Hn Hx Hy Hp H1 H2 E.
  destruct (C21_equation bvn_prob bq chi2 n nx ny pedestal bvn_mvn_ok HB Hn Hx Hy Hp H1 H2) as (f & F1 & F2 & F3). rewrite F1 in E.
  pose proof (C22_value bvn_prob) as VAL.
  set (G := binned_chi2 bvn_prob (unit_edges (Z.to_nat nx)) (unit_edges (Z.to_nat ny))) in *.
  assert (FV : forall r, f r = pedestal + (n * IZR (Z.min (nx - 1) (ny - 1)) - pedestal) * (G r / G 1) - chi2).
  { intros r. pose proof (VAL r n chi2 nx ny pedestal bvn_mvn_ok Hn Hx Hy) as V. cbn zeta in V. rewrite F2 in V. injection V as V. exact V. }
  assert (C : continuous_on f 0 1).
  { assert (CG : continuous_on G 0 1) by (apply bvn_chi2_cont; apply unit_edges_rising).
    intros x X eps He. set (k := (n * IZR (Z.min (nx - 1) (ny - 1)) - pedestal) / G 1).
    destruct (CG x X (eps / (Rabs k + 1)) ltac:(apply Rdiv_lt_0_compat; [exact He|pose proof (Rabs_pos k); lra])) as (d & D & W).
    exists d. split; [exact D|]. intros y Y L. pose proof (W y Y L) as Q. rewrite !FV.
    replace (pedestal + (n * IZR (Z.min (nx - 1) (ny - 1)) - pedestal) * (G y / G 1) - chi2 - (pedestal + (n * IZR (Z.min (nx - 1) (ny - 1)) - pedestal) * (G x / G 1) - chi2))
      with (k * (G y - G x)) by (unfold k, Rdiv; ring).
    rewrite Rabs_mult. pose proof (Rabs_pos k). pose proof (Rabs_pos (G y - G x)).
    apply Rle_lt_trans with ((Rabs k + 1) * Rabs (G y - G x)); [nra|].
    apply Rmult_lt_compat_l with (r := Rabs k + 1) in Q; [|lra]. replace ((Rabs k + 1) * (eps / (Rabs k + 1))) with eps in Q by (field; lra). exact Q. }
  destruct (rf_root bq HB f 0 1 (1 / 10 ^ 5) v ltac:(lra) ltac:(lra) C E) as (r & R1 & R2 & R3).
  exists r. split; [|split].
  - destruct (Req_dec r 0) as [-> |N0]; [lra|]. destruct (Req_dec r 1) as [-> |N1]; lra.
  - pose proof (VAL r n 0 nx ny pedestal bvn_mvn_ok Hn Hx Hy) as V. cbn zeta in V. rewrite V. fold G. f_equal. pose proof (FV r). lra.
  - eapply Rle_trans; [exact R3|]. destruct (rf_bracket bq HB f 0 1 (1 / 10 ^ 5) ltac:(lra) ltac:(lra) ltac:(nra)) as [(w & W1 & W2)|W]; [|rewrite W in E; discriminate].
    rewrite W1 in E. injection E as ->. rewrite (Rabs_pos_eq v) by lra. unfold solver_rtol.
    assert (T : 4 * / 2 ^ 52 <= 1 / 10 ^ 7) by lra. nra.
Qed.

(** square grids and grids with two bins on one axis: the two functions are inverse to each other up to the tolerance, and phik is monotone in chi2 *)
Theorem C81_roundtrip : forall bq rho n nx ny pedestal c v, root_finder_ok bq -> 0 < n -> (2 <= nx)%Z -> (2 <= ny)%Z -> nx = ny \/ Z.min nx ny = 2%Z ->
  0 <= pedestal -> pedestal < n * IZR (Z.min (nx - 1) (ny - 1)) -> 0 < rho < 1 ->
  chi2_from_phik bvn_prob rho n 0 None None None None pedestal nx ny = Ok c -> phik_from_chi2 bvn_prob bq c n nx ny None None pedestal = Ok v -> Rabs (v - rho) <= 101 / 10 ^ 7.
Proof.
  intros bq rho n nx ny pedestal c v HB Hn Hx Hy HG Hp HM HR. apply (C22_roundtrip bvn_prob bq rho n nx ny pedestal c v bvn_mvn_ok HB); try assumption.
  apply grid_regular; [lia|lia|]. destruct HG as [-> |HG]; [left; reflexivity|right; lia].
Qed.
Theorem C81_monotone : forall bq n nx ny pedestal chi2a chi2b va vb, root_finder_ok bq -> 0 < n -> (2 <= nx)%Z -> (2 <= ny)%Z -> nx = ny \/ Z.min nx ny = 2%Z ->
  0 <= pedestal -> chi2a <= chi2b ->
  phik_from_chi2 bvn_prob bq chi2a n nx ny None None pedestal = Ok va -> phik_from_chi2 bvn_prob bq chi2b n nx ny None None pedestal = Ok vb -> va <= vb + 202 / 10 ^ 7.
Proof.
  intros bq n nx ny pedestal chi2a chi2b va vb HB Hn Hx Hy HG Hp. apply (C23_monotone bvn_prob bq n nx ny pedestal chi2a chi2b va vb bvn_mvn_ok HB); try assumption.
  apply grid_regular; [lia|lia|]. destruct HG as [-> |HG]; [left; reflexivity|right; lia].
Qed.

(** a k x k grid under full correlation: the chi2 that phik rescales to k - 1 is k - 1 up to the square of the probability outside [-5, 5] *)
Theorem C81_full_correlation : forall k, (1 <= k)%nat ->
  binned_chi2 bvn_prob (unit_edges k) (unit_edges k) 1 = INR k - 1 + (1 - normal_mass (-5) 5) ^ 2.
Proof.
  intros k Hk. rewrite (chi2_grid k Hk). set (x := fun i => nth i (unit_edges k) 0). set (p := fun i => gPhi (x (S i)) - gPhi (x i)).
  assert (PP : forall i, (i < k)%nat -> 0 < p i) by (intros i I; apply (p_pos k Hk i I)).
  assert (X : forall i j, (i < j)%nat -> (j <= k)%nat -> x i < x j) by (intros i j A B; apply unit_incr; lia).
  assert (P1 : forall i j, (i < k)%nat -> (j < k)%nat -> bvn_prob 1 (x i) (x j) (x (S i)) (x (S j)) = if Nat.eqb i j then p i else 0).
  { intros i j I J. pose proof (X i (S i) ltac:(lia) ltac:(lia)). pose proof (X j (S j) ltac:(lia) ltac:(lia)). rewrite prob_1 by lra.
    destruct (Nat.eqb_spec i j) as [-> |N].
    - unfold p. f_equal; [|f_equal]; f_equal; unfold clip, Rmax, Rmin; repeat destruct (Rle_dec _ _); lra.
    - assert (Q : clip (x i) (x (S i)) (x (S j)) = clip (x i) (x (S i)) (x j)); [|rewrite Q; ring].
      destruct (Nat.lt_total i j) as [L|[L|L]]; [|contradiction|].
      + assert (x (S i) <= x j) by (destruct (Nat.eq_dec (S i) j) as [<- |M]; [lra|left; apply X; lia]). unfold clip, Rmax, Rmin; repeat destruct (Rle_dec _ _); lra.
      + assert (x (S j) <= x i) by (destruct (Nat.eq_dec (S j) i) as [<- |M]; [lra|left; apply X; lia]). unfold clip, Rmax, Rmin; repeat destruct (Rle_dec _ _); lra. }
  assert (S1 : lsum p (seq 0 k) = normal_mass (-5) 5).
  { unfold p. rewrite (telescope (fun i => gPhi (x i)) k), normal_mass_Phi. unfold x. rewrite (x_0 k Hk), (x_n k Hk). reflexivity. }
  transitivity (lsum (fun i => lsum (fun j => p i * p j + (if Nat.eqb i j then 1 - 2 * p i else 0)) (seq 0 k)) (seq 0 k)).
  - apply lsum_ext. intros i I. apply lsum_ext. intros j J. apply in_seq in I. apply in_seq in J. pose proof (PP i ltac:(lia)). pose proof (PP j ltac:(lia)).
    change (nth i (unit_edges k) 0) with (x i). change (nth j (unit_edges k) 0) with (x j). change (nth (S i) (unit_edges k) 0) with (x (S i)). change (nth (S j) (unit_edges k) 0) with (x (S j)).
    rewrite (P1 i j) by lia. change (gPhi (x (S i)) - gPhi (x i)) with (p i). change (gPhi (x (S j)) - gPhi (x j)) with (p j).
    destruct (Nat.eqb_spec i j) as [-> |N]; field; lra.
  - transitivity (lsum (fun i => p i * normal_mass (-5) 5 + (1 - 2 * p i)) (seq 0 k)).
    + apply lsum_ext. intros i I. rewrite lsum_plus, lsum_scal, S1. f_equal. rewrite (lsum_support nat Nat.eq_dec _ (seq 0 k) [i]); [simpl; rewrite Nat.eqb_refl; ring|apply seq_NoDup|repeat constructor; simpl; tauto|].
      intros j NZ. destruct (Nat.eqb_spec i j) as [EQ|N]; [|exfalso; apply NZ; reflexivity]. rewrite <- EQ. split; intros _; [left; reflexivity|exact I].
    + rewrite lsum_plus, lsum_scal_r, S1, lsum_minus, lsum_const, lsum_scal, S1, seq_length. ring.
Qed.

(** a contingency table: the value of phik_from_hist2d with no assumption on the libraries left except that mvnun computes the bivariate normal
    integral exactly and that the solver is Brent's method (BrentModel, any iteration limit) *)
Theorem C81_table : forall clamp iter m (noise : bool), nonneg_table m -> has_records m -> proper_shape m ->
  let L := mkLib clamp bvn_prob (brent_iter iter) in
  exists chi2, get_chi2 clamp m Pearson = Ok chi2 /\
  let N := matsum m in let r := Z.of_nat (nr m) in let c := Z.of_nat (nc m) in
  let maximum := N * (IZR (Z.min r c) - 1) in let pedestal := if noise then IZR (estimate_simple_ndof m) else 0 in
  (chi2 <= pedestal -> phik_from_hist2d L m noise = Ok 0) /\
  (pedestal < maximum -> maximum <= chi2 -> phik_from_hist2d L m noise = Ok 1) /\
  (pedestal < chi2 -> chi2 < maximum -> forall v, phik_from_hist2d L m noise = Ok v ->
     exists rho, 0 < rho < 1 /\ chi2_from_phik bvn_prob rho N 0 None None None None pedestal r c = Ok chi2 /\ Rabs (v - rho) <= 101 / 10 ^ 7 /\
       (nr m = nc m \/ Nat.min (nr m) (nc m) = 2%nat -> forall rho', 0 <= rho' <= 1 -> chi2_from_phik bvn_prob rho' N 0 None None None None pedestal r c = Ok chi2 -> rho' = rho)).
Proof.
  intros clamp iter m noise HN HR PS L. assert (LO : lib_ok L) by (split; [apply bvn_mvn_ok|apply brent_ok]).
  destruct (C26_value L m noise LO HN HR PS) as (chi2 & E & V). exists chi2. split; [exact E|]. cbn zeta in V |- *. destruct V as (V1 & V2 & V3).
  split; [exact V1|]. split; [exact V2|]. intros H1 H2 v F.
  assert (DEC : {nr m = nc m \/ Nat.min (nr m) (nc m) = 2%nat} + {~ (nr m = nc m \/ Nat.min (nr m) (nc m) = 2%nat)}).
  { destruct (Nat.eq_dec (nr m) (nc m)) as [Q|Q]; [left; left; exact Q|]. destruct (Nat.eq_dec (Nat.min (nr m) (nc m)) 2) as [Q2|Q2]; [left; right; exact Q2|right; tauto]. }
  destruct DEC as [Q|Q].
  - destruct PS as [P1 P2]. destruct (V3 H1 H2) with (v := v) as (rho & A & B & C & D); [cbn [L l_mvn]; apply grid_regular; [lia|lia|exact Q]|exact F|].
    exists rho. split; [exact A|]. split; [exact B|]. split; [exact C|]. intros _. exact D.
  - pose proof (get_chi2_closed clamp m Pearson HN HR) as GE. pose proof (matsum_pos m HN HR) as MP. pose proof PS as [P1 P2].
    assert (NN : (0 <= estimate_simple_ndof m)%Z) by (unfold estimate_simple_ndof; destruct (Z.ltb_spec (Z.of_nat (nr m * nc m) - Z.of_nat (nr m + nc m) + 2 - 1 - Z.of_nat (zero_expected m)) 0); lia).
    set (ped := if noise then IZR (estimate_simple_ndof m) else 0) in *.
    assert (PP : 0 <= ped) by (unfold ped; destruct noise; [apply (IZR_le 0); exact NN|lra]).
    assert (U : phik_from_hist2d L m noise = phik_from_chi2 bvn_prob (brent_iter iter) chi2 (matsum m) (Z.of_nat (nr m)) (Z.of_nat (nc m)) None None ped).
    { change (get_chi2 clamp m Pearson = Ok chi2) in E. unfold phik_from_hist2d, L. cbn [l_clamp l_mvn l_bq]. rewrite E. cbn [rbind]. unfold ped. destruct noise.
      - rewrite (proj2 (Z.ltb_ge (estimate_simple_ndof m) 0)) by exact NN. reflexivity.
      - rewrite Z.ltb_irrefl. reflexivity. }
    rewrite U in F.
    assert (MX : matsum m * (IZR (Z.min (Z.of_nat (nr m)) (Z.of_nat (nc m))) - 1) = matsum m * IZR (Z.min (Z.of_nat (nr m) - 1) (Z.of_nat (nc m) - 1))).
    { f_equal. rewrite <- minus_IZR. f_equal. lia. }
    rewrite MX in H2.
    destruct (C81_solution (brent_iter iter) chi2 (matsum m) (Z.of_nat (nr m)) (Z.of_nat (nc m)) ped v (brent_ok iter) MP ltac:(lia) ltac:(lia) PP H1 H2 F) as (rho & A & B & C).
    exists rho. split; [exact A|]. split; [exact B|]. split; [exact C|]. intros QQ. contradiction.
Qed.

(** non-vacuity: a 3 x 3 table strictly between the pedestal and the maximum *)
Definition c81_table : mat := mkMat 3 3 (fun i j => if Nat.eqb i j then 4 else 1).
Example C81_table_hypotheses : nonneg_table c81_table /\ has_records c81_table /\ proper_shape c81_table /\
  exists chi2, get_chi2 true c81_table Pearson = Ok chi2 /\ 0 < chi2 /\ chi2 < matsum c81_table * (IZR 3 - 1).
Proof.
  assert (HN : nonneg_table c81_table) by (intros i j _ _; simpl; destruct (Nat.eqb i j); lra).
  assert (HR : has_records c81_table) by (exists 0%nat, 0%nat; simpl; repeat split; try lia; lra).
  split; [exact HN|]. split; [exact HR|]. split; [split; simpl; lia|].
  assert (ER : enum_rows c81_table [0; 1; 2]%nat).
  { split; [repeat constructor; simpl; intuition lia|]. intros i. simpl. split.
    - intros [<- |[<- |[<- |[]]]]; (split; [lia|]); exists 0%nat; (split; [lia|]); simpl; lra.
    - intros [A _]. lia. }
  assert (EC : enum_cols c81_table [0; 1; 2]%nat).
  { split; [repeat constructor; simpl; intuition lia|]. intros i. simpl. split.
    - intros [<- |[<- |[<- |[]]]]; (split; [lia|]); exists 0%nat; (split; [lia|]); simpl; lra.
    - intros [A _]. lia. }
  assert (MS : matsum c81_table = 18) by (unfold matsum, rowsum, c81_table; simpl; lra).
  exists 9. split.
  - rewrite (C14_chi2_value true c81_table Pearson [0; 1; 2]%nat [0; 1; 2]%nat HN HR ER EC ltac:(left; simpl; lia)). f_equal. cbv zeta. rewrite MS. cbn [length Nat.leb orb lsum fold_right].
    unfold rowsum, colsum, c81_table. simpl. field.
  - rewrite MS. lra.
Qed.
(** a 2 x 3 table (0/1 variable against three categories) *)
Definition c81_table2 : mat := mkMat 2 3 (fun i j => if Nat.eqb j (2 * i) then 4 else 1).
Example C81_table2_hypotheses : nonneg_table c81_table2 /\ has_records c81_table2 /\ proper_shape c81_table2 /\ Nat.min (nr c81_table2) (nc c81_table2) = 2%nat /\
  exists chi2, get_chi2 true c81_table2 Pearson = Ok chi2 /\ 0 < chi2 /\ chi2 < matsum c81_table2 * (IZR (Z.min 2 3) - 1).
Proof.
  assert (HN : nonneg_table c81_table2) by (intros i j _ _; unfold c81_table2; cbn [el]; destruct (Nat.eqb j (2 * i)); lra).
  assert (HR : has_records c81_table2) by (exists 0%nat, 0%nat; simpl; repeat split; try lia; lra).
  split; [exact HN|]. split; [exact HR|]. split; [split; simpl; lia|]. split; [reflexivity|].
  assert (ER : enum_rows c81_table2 [0; 1]%nat).
  { split; [repeat constructor; simpl; intuition lia|]. intros i. simpl. split.
    - intros [<- |[<- |[]]]; (split; [lia|]); exists 0%nat; (split; [lia|]); simpl; lra.
    - intros [A _]. lia. }
  assert (EC : enum_cols c81_table2 [0; 1; 2]%nat).
  { split; [repeat constructor; simpl; intuition lia|]. intros i. simpl. split.
    - intros [<- |[<- |[<- |[]]]]; (split; [lia|]); exists 0%nat; (split; [lia|]); simpl; lra.
    - intros [A _]. lia. }
  assert (MS : matsum c81_table2 = 12) by (unfold matsum, rowsum, c81_table2; simpl; lra).
  exists (18 / 5). split.
  - rewrite (C14_chi2_value true c81_table2 Pearson [0; 1]%nat [0; 1; 2]%nat HN HR ER EC ltac:(right; simpl; lia)). f_equal. cbv zeta. rewrite MS. cbn [length Nat.leb orb lsum fold_right].
    unfold rowsum, colsum, c81_table2. simpl. field.
  - rewrite MS. change (Z.min 2 3) with 2%Z. lra.
Qed.
Print Assumptions C81_table.
