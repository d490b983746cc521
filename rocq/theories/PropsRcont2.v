(** C46, C48: the period and the variates of the generator; which error code. *)
From Coq Require Import ZArith Znumtheory Zpow_facts List Bool Reals Lia Lra.
From Flocq Require Import Core.
Import ListNotations.
From Verif Require Import F64 LinspaceProofs SpecRcont RcontModel RcontProofs RcontProofs2.
Open Scope Z_scope.

(** the seed after n variates *)
Fixpoint seed_after (n : nat) (seed : Z) : cres Z :=
  match n with O => COk seed | S n' => do r <- r8_uniform_01 seed; seed_after n' (snd r) end.

Definition pm : Z := 2 ^ 31 - 1.
Fixpoint no_divisor (p d : Z) (steps : nat) : bool :=
  match steps with O => true | S n => negb (p mod d =? 0) && no_divisor p (d + 1) n end.
Lemma no_divisor_spec : forall p steps d0 d, no_divisor p d0 steps = true -> 0 < d0 -> d0 <= d < d0 + Z.of_nat steps -> ~ (d | p).
Proof.
  intros p steps. induction steps as [|n IH]; intros d0 d H H0 B; [lia|]. cbn [no_divisor] in H. apply andb_prop in H. destruct H as [H1 H2].
  destruct (Z.eq_dec d d0) as [->|N]; [|apply (IH (d0 + 1)); [exact H2|lia|lia]]. intros D. apply Z.mod_divide in D; [|lia]. rewrite D in H1. discriminate.
Qed.
Lemma trial_division : forall p bound, 1 < p -> p < (Z.of_nat bound + 2) ^ 2 -> no_divisor p 2 bound = true -> prime p.
Proof.
  intros p bound Hp Hb H. apply prime_alt. split; [exact Hp|]. intros n Hn D.
  assert (Small : forall d, 1 < d -> d < Z.of_nat bound + 2 -> ~ (d | p)) by (intros d H1 H2; apply (no_divisor_spec p bound 2); [exact H|lia|lia]).
  destruct D as [q Hq]. destruct (Z_lt_le_dec n (Z.of_nat bound + 2)) as [L|L]; [apply (Small n); [lia|exact L|exists q; exact Hq]|].
  apply (Small q); [nia|nia|exists n; lia].
Qed.
Lemma prime_pm : prime pm. Proof. apply (trial_division pm (Z.to_nat 46340)); [reflexivity|vm_compute; reflexivity|vm_cast_no_check (eq_refl true)]. Qed.
Definition pfactors : list Z := [2; 3; 7; 11; 31; 151; 331].
Lemma pfactors_prime : forall q, In q pfactors -> prime q.
Proof. intros q H. simpl in H. destruct H as [H|[H|[H|[H|[H|[H|[H|[]]]]]]]]; subst q; [apply (trial_division _ 0)|apply (trial_division _ 0)|apply (trial_division _ 1)|apply (trial_division _ 2)|apply (trial_division _ 4)|apply (trial_division _ 11)|apply (trial_division _ 17)]; vm_compute; reflexivity. Qed.

Lemma divisor_has_factor : forall m, 1 < m -> (m | pm - 1) -> exists q, In q pfactors /\ (q | m).
Proof.
  intros m Hm D. destruct (Forall_Exists_dec (fun q => ~ (q | m)) (fun q => match Zdivide_dec q m with left a => right (fun n => n a) | right b => left b end) pfactors) as [F|E].
  - exfalso. assert (R : forall q, In q pfactors -> rel_prime m q). { intros q Hq. apply rel_prime_sym. apply prime_rel_prime; [apply pfactors_prime, Hq|]. rewrite Forall_forall in F. apply F, Hq. }
    assert (R' : rel_prime m (pm - 1)).
    { replace (pm - 1) with (2 * (3 * (3 * (7 * (11 * (31 * (151 * 331))))))) by reflexivity. repeat apply rel_prime_mult; apply R; simpl; tauto. }
    destruct R' as [_ _ G]. specialize (G m (Z.divide_refl m) D). apply Z.divide_1_r_nonneg in G; lia.
  - rewrite Exists_exists in E. destruct E as (q & Hq & N). exists q. split; [exact Hq|]. destruct (Zdivide_dec q m) as [A|A]; [exact A|contradiction].
Qed.
Definition g : Z := 16807.
Lemma order_table : g ^ (pm - 1) mod pm = 1 /\ forall q, In q pfactors -> g ^ ((pm - 1) / q) mod pm <> 1.
Proof.
  split; [rewrite <- Zpow_mod_correct by discriminate; vm_compute; reflexivity|]. intros q H. rewrite <- Zpow_mod_correct by discriminate.
  simpl in H. destruct H as [H|[H|[H|[H|[H|[H|[H|[]]]]]]]]; subst q; vm_compute; discriminate.
Qed.

(** ** The seed sequence *)
Lemma seed_formula : forall n seed, 1 <= seed <= pm - 1 ->
  seed_after n seed = COk ((g ^ Z.of_nat n * seed) mod pm) /\ 1 <= (g ^ Z.of_nat n * seed) mod pm <= pm - 1.
Proof.
  induction n as [|n IH]; intros s Hs.
  - simpl seed_after. change (g ^ Z.of_nat 0) with 1. rewrite Z.mul_1_l, Z.mod_small by (unfold pm in *; lia). split; [reflexivity|exact Hs].
  - assert (E : seed_after (S n) s = seed_after n ((16807 * s) mod lcg_p)).
    { cbn [seed_after]. rewrite r8_ok by (unfold int_min, int_max, pm in *; lia). reflexivity. }
    assert (HB : 1 <= (16807 * s) mod lcg_p <= pm - 1).
    { pose proof (lcg_range (16807 * s)). pose proof (lcg_nonzero s ltac:(unfold lcg_p, pm in *; lia)). change (pm - 1) with (lcg_p - 1). lia. }
    destruct (IH _ HB) as [IE IB].
    assert (X : (g ^ Z.of_nat n * ((16807 * s) mod lcg_p)) mod pm = (g ^ Z.of_nat (S n) * s) mod pm).
    { change lcg_p with pm. rewrite Zmult_mod_idemp_r. rewrite Nat2Z.inj_succ, Z.pow_succ_r by lia. f_equal. unfold g. ring. }
    rewrite X in IE, IB. rewrite E. split; [exact IE|exact IB].
Qed.

Lemma power_one_mult : forall g p a k, 1 < p -> 0 <= k -> g ^ a mod p = 1 -> 0 <= a -> g ^ (a * k) mod p = 1.
Proof. intros g p a k Hp Hk H Ha. rewrite Z.pow_mul_r by lia. rewrite Zpower_mod by lia. rewrite H. rewrite Z.pow_1_l by lia. apply Z.mod_small. lia. Qed.
Lemma times_one : forall g p a b, 1 < p -> 0 <= a -> 0 <= b -> g ^ b mod p = 1 -> g ^ (a + b) mod p = g ^ a mod p.
Proof. intros g p a b Hp Ha Hb H. rewrite Z.pow_add_r by lia. rewrite Zmult_mod, H, Z.mul_1_r, Zmod_mod. reflexivity. Qed.

(** the exponents giving 1 are the multiples of N, if no N/q gives 1 *)
Lemma order_gen : forall g p N, 1 < p -> 0 < N -> g ^ N mod p = 1 ->
  (forall m, 1 < m -> (m | N) -> exists q, 1 < q /\ (q | m) /\ g ^ (N / q) mod p <> 1) ->
  forall k, 0 <= k -> (g ^ k mod p = 1 <-> (N | k)).
Proof.
  intros g p N Hp HN O1 O2 k Hk. split.
  - intros H. set (d := Z.gcd k N). assert (Hd : 0 < d). { pose proof (Z.gcd_nonneg k N) as P. fold d in P. destruct (Z.eq_dec d 0) as [E|E]; [|lia]. apply Z.gcd_eq_0_r in E. lia. }
    assert (Gd : g ^ d mod p = 1).
    { destruct (Z.gcd_bezout k N d eq_refl) as (u & v & B).
      assert (U : 0 <= u + N * Z.abs u) by nia. assert (V : 0 <= Z.abs v) by lia. assert (W : 0 <= Z.abs v - v) by lia. assert (KU : 0 <= k * Z.abs u) by nia.
      assert (E1 : g ^ (k * (u + N * Z.abs u)) mod p = 1) by (apply power_one_mult; assumption).
      assert (E2 : g ^ (N * (k * Z.abs u)) mod p = 1) by (clear - Hp HN O1 U V W KU; apply power_one_mult; [exact Hp| |exact O1|apply Z.lt_le_incl, HN]; assumption).
      assert (E3 : g ^ (N * (Z.abs v - v)) mod p = 1) by (clear - Hp HN O1 U V W KU; apply power_one_mult; [exact Hp| |exact O1|apply Z.lt_le_incl, HN]; assumption).
      assert (E4 : g ^ (N * Z.abs v) mod p = 1) by (clear - Hp HN O1 U V W KU; apply power_one_mult; [exact Hp| |exact O1|apply Z.lt_le_incl, HN]; assumption).
      assert (Hd' : 0 <= d) by (apply Z.lt_le_incl, Hd). assert (A1 : 0 <= k * (u + N * Z.abs u)) by (clear - Hk HN U V W KU; apply Z.mul_nonneg_nonneg; lia). assert (A2 : 0 <= N * (k * Z.abs u)) by (clear - Hk HN U V W KU; apply Z.mul_nonneg_nonneg; lia). assert (A3 : 0 <= N * (Z.abs v - v)) by (clear - Hk HN U V W KU; apply Z.mul_nonneg_nonneg; lia). assert (A4 : 0 <= N * Z.abs v) by (clear - Hk HN U V W KU; apply Z.mul_nonneg_nonneg; lia).
      assert (X : d + N * (k * Z.abs u) + N * (Z.abs v - v) = k * (u + N * Z.abs u) + N * (Z.abs v)) by (rewrite <- B; ring).
      rewrite <- (times_one g p d (N * (k * Z.abs u))) by assumption. rewrite <- (times_one g p _ (N * (Z.abs v - v))) by (try assumption; apply Z.add_nonneg_nonneg; assumption). rewrite X.
      rewrite (times_one g p _ _ Hp A1 A4 E4). exact E1. }
    assert (DN : (d | N)) by apply Z.gcd_divide_r. destruct DN as [m Hm].
    destruct (Z.eq_dec m 1) as [E1|N1].
    + subst m. rewrite Z.mul_1_l in Hm. rewrite Hm. apply Z.gcd_divide_l.
    + exfalso. assert (Hm1 : 1 < m) by nia. destruct (O2 m Hm1) as (q & Hq & [r Hr] & Nq); [exists d; rewrite Hm; ring|].
      apply Nq. replace (N / q) with (d * r); [apply power_one_mult; [exact Hp|clear - Hr Hq Hm1; nia|exact Gd|apply Z.lt_le_incl, Hd]|].
      apply Z.div_unique with 0; [clear - Hq; lia|]. rewrite Hm, Hr. ring.
  - intros [c Hc]. replace k with (N * c) by lia. apply power_one_mult; [exact Hp|nia|exact O1|lia].
Qed.
Lemma order_g : forall k, 0 <= k -> (g ^ k mod pm = 1 <-> (pm - 1 | k)).
Proof.
  destruct order_table as [O1 O2]. apply order_gen; [reflexivity|reflexivity|exact O1|]. intros m Hm D.
  destruct (divisor_has_factor m Hm D) as (q & Hq & Dq). exists q. split; [pose proof (prime_ge_2 q (pfactors_prime q Hq)); lia|]. split; [exact Dq|apply O2, Hq].
Qed.

Lemma cancel_seed : forall a b s, 1 <= s <= pm - 1 -> (a * s) mod pm = (b * s) mod pm -> a mod pm = b mod pm.
Proof.
  intros a b s Hs H. assert (D : (pm | (a - b) * s)). { apply Z.mod_divide; [discriminate|]. rewrite Z.mul_sub_distr_r, Zminus_mod, H, Z.sub_diag. reflexivity. }
  apply prime_mult in D; [|exact prime_pm]. destruct D as [D|D].
  - destruct D as [c Hc]. replace a with (b + c * pm) by lia. apply Z_mod_plus_full.
  - apply Z.divide_pos_le in D; lia.
Qed.

(** The seeds repeat exactly after 2^31 - 2 variates, never sooner: every valid seed runs through every other. *)
Theorem C46_full_period : forall seed, 1 <= seed <= 2 ^ 31 - 2 ->
  (forall n, seed_after n seed = COk ((16807 ^ Z.of_nat n * seed) mod (2 ^ 31 - 1))) /\
  (forall n, seed_after n seed = COk seed <-> (2 ^ 31 - 2 | Z.of_nat n)) /\
  (forall i j, seed_after i seed = seed_after j seed <-> (2 ^ 31 - 2 | Z.of_nat i - Z.of_nat j)).
Proof.
  intros s Hs. assert (Hs' : 1 <= s <= pm - 1) by (unfold pm; lia).
  assert (F : forall n, seed_after n s = COk ((g ^ Z.of_nat n * s) mod pm)) by (intros n; apply seed_formula, Hs').
  assert (P : forall i j, (i <= j)%nat -> (seed_after i s = seed_after j s <-> (pm - 1 | Z.of_nat (j - i)))).
  { intros i j L. rewrite !F. rewrite <- order_g by lia. assert (Ej : g ^ Z.of_nat j = g ^ Z.of_nat (j - i) * g ^ Z.of_nat i) by (rewrite <- Z.pow_add_r by lia; f_equal; lia).
    destruct (seed_formula i s Hs') as [_ Bi]. set (t := (g ^ Z.of_nat i * s) mod pm) in *.
    assert (Et : (g ^ Z.of_nat j * s) mod pm = (g ^ Z.of_nat (j - i) * t) mod pm) by (unfold t; rewrite Zmult_mod_idemp_r, Ej; f_equal; ring).
    rewrite Et. assert (T1 : t = (1 * t) mod pm) by (rewrite Z.mul_1_l, Z.mod_small by lia; reflexivity). split.
    - intros E. assert (E' : t = (g ^ Z.of_nat (j - i) * t) mod pm) by congruence. rewrite T1 in E' at 1. apply cancel_seed in E'; [|exact Bi]. rewrite <- E'. reflexivity.
    - intros E. rewrite <- Zmult_mod_idemp_l, E, <- T1. reflexivity. }
  split; [exact F|]. split.
  - intros n. change (2 ^ 31 - 2) with (pm - 1). pose proof (P 0%nat n ltac:(lia)) as Q. rewrite Nat.sub_0_r in Q. rewrite <- Q. cbn [seed_after]. split; intros E; congruence.
  - intros i j. change (2 ^ 31 - 2) with (pm - 1). destruct (le_lt_dec i j) as [L|L].
    + rewrite (P i j L). rewrite Nat2Z.inj_sub by lia. split; intros D; apply Z.divide_opp_r in D; [replace (Z.of_nat i - Z.of_nat j) with (- (Z.of_nat j - Z.of_nat i)) by ring|replace (Z.of_nat j - Z.of_nat i) with (- (Z.of_nat i - Z.of_nat j)) by ring]; exact D.
    + pose proof (P j i ltac:(lia)) as Q. rewrite Nat2Z.inj_sub in Q by lia. rewrite <- Q. split; intros E; congruence.
Qed.
Print Assumptions C46_full_period.

(** from any valid seed every other valid seed is reached, exactly once per period *)
Theorem C46_reaches_every_seed : forall seed target, 1 <= seed <= 2 ^ 31 - 2 -> 1 <= target <= 2 ^ 31 - 2 ->
  exists n, Z.of_nat n < 2 ^ 31 - 2 /\ seed_after n seed = COk target /\
            forall m, Z.of_nat m < 2 ^ 31 - 2 -> seed_after m seed = COk target -> m = n.
Proof.
  intros s t Hs Ht. destruct (C46_full_period s Hs) as (F & _ & D).
  set (N := Z.to_nat (2 ^ 31 - 2)). assert (HN : Z.of_nat N = 2 ^ 31 - 2) by (unfold N; apply Z2Nat.id; discriminate).
  set (f := fun i : nat => (16807 ^ Z.of_nat i * s) mod (2 ^ 31 - 1)) in *.
  assert (Inj : forall i j, (i < N)%nat -> (j < N)%nat -> f i = f j -> i = j).
  { intros i j Li Lj E. assert (Q : seed_after i s = seed_after j s) by (rewrite !F; fold (f i) (f j); rewrite E; reflexivity). apply D in Q. destruct Q as [c Hc]. assert (c = 0) by nia. subst c. lia. }
  assert (Nd : NoDup (map f (seq 0 N))).
  { assert (Gen : forall l, NoDup l -> (forall i, In i l -> (i < N)%nat) -> NoDup (map f l)).
    { induction l as [|a l IH]; intros ND HL; simpl; [constructor|]. inversion ND as [|? ? Na NDl]; subst. constructor.
      - rewrite in_map_iff. intros (b & Eb & Ib). apply Na. assert (b = a) by (apply Inj; [apply HL; right; exact Ib|apply HL; left; reflexivity|exact Eb]). subst b. exact Ib.
      - apply IH; [exact NDl|]. intros i Hi. apply HL. right. exact Hi. }
    apply Gen; [apply seq_NoDup|]. intros i Hi. apply in_seq in Hi. lia. }
  assert (Incl : incl (map f (seq 0 N)) (map Z.of_nat (seq 1 N))).
  { intros z Hz. apply in_map_iff in Hz. destruct Hz as (i & Ei & Hi). destruct (seed_formula i s ltac:(unfold pm; lia)) as [_ B]. change ((g ^ Z.of_nat i * s) mod pm) with (f i) in B. rewrite Ei in B. unfold pm in B.
    apply in_map_iff. exists (Z.to_nat z). split; [apply Z2Nat.id; lia|]. apply in_seq. lia. }
  assert (Incl2 : incl (map Z.of_nat (seq 1 N)) (map f (seq 0 N))) by (apply NoDup_length_incl; [exact Nd|rewrite !map_length, !seq_length; lia|exact Incl]).
  assert (It : In t (map f (seq 0 N))). { apply Incl2. apply in_map_iff. exists (Z.to_nat t). split; [apply Z2Nat.id; lia|]. apply in_seq. lia. }
  apply in_map_iff in It. destruct It as (n & En & Hn). apply in_seq in Hn. exists n. split; [lia|]. split; [rewrite F; fold (f n); rewrite En; reflexivity|].
  intros m Hm Em. apply Inj; [lia|lia|]. rewrite F in Em. fold (f m) in Em. congruence.
Qed.
Print Assumptions C46_reaches_every_seed.

(** ** The variate is the new seed divided by 2^31 - 1 *)
Open Scope R_scope.
Theorem C46_variate : forall seed u seed', (1 <= seed <= 2 ^ 31 - 2)%Z -> r8_uniform_01 seed = COk (u, seed') ->
  Rabs (f2R u - IZR seed' / IZR (2 ^ 31 - 1)) <= / 10 ^ 9.
Proof.
  intros s u s' Hs H. rewrite r8_ok in H by (unfold int_min, int_max; lia). 
  set (z := ((16807 * s) mod lcg_p)%Z) in *. assert (Hz : (0 < z < lcg_p)%Z) by (split; [apply lcg_nonzero; unfold lcg_p; lia|apply lcg_range]).
  assert (Es : s' = z) by congruence. assert (Eu : u = fmult (ofZ z) unif_const) by congruence. clear H. subst s'. subst u. clearbody z. unfold lcg_p in Hz.
  destruct (ofZ_spec z) as [Hz1 Hz2]; [lia|]. destruct unif_const_spec as [Hc1 Hc2].
  set (c := IZR 4503599629229928 * bpow radix2 (-83)) in *.
  assert (Z1 : 1 <= IZR z) by (apply (IZR_le 1); lia). assert (Z2 : IZR z <= 2147483646) by (apply IZR_le; lia).
  assert (Hc : c = 4503599629229928 / 9671406556917033397649408) by reflexivity.
  assert (C1 : 46566e-14 < c < 46567e-14) by (rewrite Hc; lra).
  assert (B : 0 < IZR z * c < 1) by nra.
  destruct (fmult_spec (ofZ z) unif_const 0 Hz2 Hc2) as [Hu1 _]; [lia|rewrite Hz1, Hc1, Rabs_pos_eq by lra; change (bpow radix2 0) with 1; lra|].
  rewrite Hu1, Hz1, Hc1.
  destruct (LinspaceProofs.rel_err (IZR z * c)) as (eps & He & Er).
  { rewrite Rabs_pos_eq by lra. apply Rle_trans with (bpow radix2 (-40)); [apply bpow_le; lia|]. change (bpow radix2 (-40)) with (/ IZR (2 ^ 40)). simpl Z.pow. nra. }
  rewrite Er. change (bpow radix2 (-53)) with (/ 9007199254740992) in He. apply Rabs_le_inv in He.
  simpl (2 ^ 31 - 1)%Z. apply Rabs_le. rewrite Hc in *. clear Hc. set (x := IZR z) in *. clearbody x. clear Hc1 Hz1 Hu1 Er c.
  assert (K : Rabs (x * (4503599629229928 / 9671406556917033397649408) * eps) <= / 9007199254740992).
  { rewrite Rabs_mult, (Rabs_pos_eq (x * _)) by lra. rewrite <- (Rmult_1_l (/ _)). apply Rmult_le_compat; [lra|apply Rabs_pos|lra|apply Rabs_le; lra]. }
  apply Rabs_le_inv in K. lra.
Qed.
Print Assumptions C46_variate.
Open Scope Z_scope.

(** ** C48: which error *)
Definition first_problem (nrow ncol : nat) (rt ct : list Z) (code : Z) : Prop :=
  let bad_rows := (nrow <= 1)%nat in let bad_cols := (ncol <= 1)%nat in
  let empty_row := exists t, In t rt /\ t <= 0 in let empty_col := exists t, In t ct /\ t <= 0 in
  (code = 1 /\ bad_rows) \/ (code = 2 /\ ~ bad_rows /\ bad_cols) \/ (code = 3 /\ ~ bad_rows /\ ~ bad_cols /\ empty_row) \/
  (code = 4 /\ ~ bad_rows /\ ~ bad_cols /\ ~ empty_row /\ empty_col) \/
  (code = 6 /\ ~ bad_rows /\ ~ bad_cols /\ ~ empty_row /\ ~ empty_col /\ zsum rt <> zsum ct).

Lemma first_problem_unique : forall nrow ncol rt ct a b, first_problem nrow ncol rt ct a -> first_problem nrow ncol rt ct b -> a = b.
Proof. unfold first_problem. intros nrow ncol rt ct a b HA HB. destruct HA as [HA|[HA|[HA|[HA|HA]]]], HB as [HB|[HB|[HB|[HB|HB]]]]; try (exfalso; tauto); destruct HA as [-> _], HB as [-> _]; reflexivity. Qed.

Lemma some_nonpos : forall l, existsb (fun t => t <=? 0) l = true <-> exists t, In t l /\ t <= 0.
Proof. intros l. rewrite existsb_exists. split; intros (t & I & H); exists t; split; try assumption; apply Z.leb_le; exact H. Qed.

Theorem C48_which_code : forall libm_exp libm_log fuel ib0 nrow ncol rt ct seed mat code,
  length rt = nrow -> length ct = ncol -> length mat = (nrow * ncol)%nat -> int32 seed ->
  libm_ok libm_exp libm_log -> (2 <= fuel)%nat -> zsum rt <= 46340 -> zsum ct <= 46340 ->
  rcont2 libm_exp libm_log fuel ib0 nrow ncol rt ct seed mat = CErr (IErr code) <-> first_problem nrow ncol rt ct code.
Proof.
  intros lexp llog fuel ib0 nrow ncol rt ct seed mat code Lr Lc Lm Hs Hl Hf Sr Sc.
  assert (No : forall l, ~ (exists t, In t l /\ t <= 0) -> existsb (fun t => t <=? 0) l = false) by (intros l H; destruct (existsb _ l) eqn:E; [apply some_nonpos in E; contradiction|reflexivity]).
  assert (Pos : forall l, ~ (exists t, In t l /\ t <= 0) -> forall x, In x l -> 0 < x) by (intros l H x Hx; destruct (Z_lt_le_dec 0 x) as [L|L]; [exact L|exfalso; apply H; exists x; split; assumption]).
  assert (Bwd : forall c, first_problem nrow ncol rt ct c -> rcont2 lexp llog fuel ib0 nrow ncol rt ct seed mat = CErr (IErr c)).
  { intros c P. unfold first_problem in P. unfold rcont2.
    destruct P as [(-> & A)|[(-> & A & B)|[(-> & A & B & C)|[(-> & A & B & C & D)|(-> & A & B & C & D & E)]]]].
    - destruct (Nat.leb_spec nrow 1); [reflexivity|lia].
    - destruct (Nat.leb_spec nrow 1); [lia|]. destruct (Nat.leb_spec ncol 1); [reflexivity|lia].
    - destruct (Nat.leb_spec nrow 1); [lia|]. destruct (Nat.leb_spec ncol 1); [lia|]. apply some_nonpos in C. rewrite C. reflexivity.
    - destruct (Nat.leb_spec nrow 1); [lia|]. destruct (Nat.leb_spec ncol 1); [lia|]. rewrite (No _ C). apply some_nonpos in D. rewrite D. reflexivity.
    - destruct (Nat.leb_spec nrow 1); [lia|]. destruct (Nat.leb_spec ncol 1); [lia|]. rewrite (No _ C), (No _ D).
      unfold i4vec_sum. rewrite !i4vec_sum_spec by (try (apply Pos; assumption); unfold int32, int_min, int_max; lia).
      cbn [Z.add]. unfold int_max.
      destruct (Z.leb_spec (zsum ct) 2147483647); [|lia]. cbn [cbind].
      destruct (Z.leb_spec (zsum rt) 2147483647); [|lia]. cbn [cbind].
      destruct (Z.eqb_spec (zsum ct) (zsum rt)); [congruence|reflexivity]. }
  split; [|apply Bwd]. intros H.
  pose proof (rcont2_errors lexp llog fuel ib0 nrow ncol rt ct seed mat Lr Lc Lm Hs Hl Hf Sr Sc) as [[(M & s' & E & _) _]|[_ NV]]; [congruence|].
  assert (X : exists c, first_problem nrow ncol rt ct c).
  { unfold first_problem. destruct (le_lt_dec nrow 1) as [A|A]; [exists 1; tauto|]. assert (A' : ~ (nrow <= 1)%nat) by lia. destruct (le_lt_dec ncol 1) as [B|B]; [exists 2; tauto|]. assert (B' : ~ (ncol <= 1)%nat) by lia.
    destruct (existsb (fun t => t <=? 0) rt) eqn:C; [apply some_nonpos in C; exists 3; tauto|]. assert (C' : ~ exists t, In t rt /\ t <= 0) by (rewrite <- some_nonpos, C; discriminate).
    destruct (existsb (fun t => t <=? 0) ct) eqn:D; [apply some_nonpos in D; exists 4; tauto|]. assert (D' : ~ exists t, In t ct /\ t <= 0) by (rewrite <- some_nonpos, D; discriminate).
    exists 6. assert (Ne : zsum rt <> zsum ct); [|tauto]. intros E. apply NV. unfold valid_totals. repeat split; try assumption; try lia; apply Pos; assumption. }
  destruct X as [c P]. pose proof (Bwd c P) as Q. assert (c = code) by congruence. subst c. exact P.
Qed.
Print Assumptions C48_which_code.

(** a call that meets the hypotheses: an empty row total is code 3 although the totals also differ *)
Example C48_code_example : first_problem 2 3 [5; 0] [1; 2; 3] 3 /\ ~ first_problem 2 3 [5; 0] [1; 2; 3] 6.
Proof.
  assert (P : first_problem 2 3 [5; 0] [1; 2; 3] 3) by (unfold first_problem; right; right; left; repeat split; try lia; exists 0; split; [simpl; auto|lia]).
  split; [exact P|]. intros Q. pose proof (first_problem_unique _ _ _ _ _ _ P Q). discriminate.
Qed.
