(** Proofs about the model of asa159.cpp. *)
From Coq Require Import ZArith List Bool Lia Reals Lra Psatz.
Import ListNotations.
From Flocq Require Import Core BinarySingleNaN.
From Verif Require Import F64 RcontModel SpecRcont.
Open Scope Z_scope.

(** weakest precondition with two escape hatches: integer overflow is allowed only if [small]
    fails, running out of fuel only if [term] fails *)
Definition wp {A} (small term : Prop) (P : A -> Prop) (m : cres A) : Prop :=
  match m with
  | COk a => P a
  | CErr IntOverflow => ~ small
  | CErr OutOfFuel => ~ term
  | CErr OutOfBounds => False
  | CErr (IErr _) => False
  end.

Section Wp.
Variables small term : Prop.

Lemma wp_bind : forall A B (Q : A -> Prop) (P : B -> Prop) m f,
  wp small term Q m -> (forall a, Q a -> wp small term P (f a)) -> wp small term P (cbind m f).
Proof. intros A B Q P [a|[]] f Hm Hf; simpl in *; auto. Qed.

Lemma wp_mono : forall A (P Q : A -> Prop) m, wp small term P m -> (forall a, P a -> Q a) -> wp small term Q m.
Proof. intros A P Q [a|[]] H HPQ; simpl in *; auto. Qed.

Lemma wp_ck : forall (P : Z -> Prop) z,
  (small -> int_min <= z <= int_max) -> (int_min <= z <= int_max -> P z) -> wp small term P (ck z).
Proof.
  intros P z Hs HP. unfold ck. destruct ((int_min <=? z) && (z <=? int_max)) eqn:E; simpl.
  - apply HP. apply andb_true_iff in E. lia.
  - intros H. apply Hs in H. apply andb_false_iff in E. lia.
Qed.

Lemma wp_bind_ck : forall B (P : B -> Prop) z f,
  (small -> int_min <= z <= int_max) -> (int_min <= z <= int_max -> wp small term P (f z)) ->
  wp small term P (cbind (ck z) f).
Proof. intros. eapply wp_bind; [apply wp_ck with (P := fun y => y = z /\ int_min <= z <= int_max); auto|]. intros a [-> Ha]; auto. Qed.

Lemma wp_bind_rd : forall A B (d : A) (P : B -> Prop) (l : list A) i f,
  0 <= i < Z.of_nat (length l) ->
  wp small term P (f (nth (Z.to_nat i) l d)) -> wp small term P (cbind (rd l i) f).
Proof.
  intros A B d P l i f Hi H. unfold rd. replace (i <? 0) with false by lia.
  rewrite (nth_error_nth' l d) by lia. exact H.
Qed.

Lemma wp_bind_wr : forall A B (P : B -> Prop) (l : list A) i a f,
  0 <= i < Z.of_nat (length l) ->
  wp small term P (f (upd l (Z.to_nat i) a)) -> wp small term P (cbind (wr l i a) f).
Proof.
  intros A B P l i a f Hi H. unfold wr.
  replace ((0 <=? i) && (i <? Z.of_nat (length l))) with true by lia. exact H.
Qed.
End Wp.

Lemma upd_length : forall A (l : list A) i a, length (upd l i a) = length l.
Proof. induction l as [|b l IH]; intros [|i] a; simpl; auto. Qed.

Lemma nth_upd : forall A (l : list A) i j a d, (i < length l)%nat ->
  nth j (upd l i a) d = if Nat.eqb j i then a else nth j l d.
Proof.
  induction l as [|b l IH]; intros i j a d Hi; simpl in Hi; [lia|].
  destruct i as [|i], j as [|j]; simpl; auto.
  apply IH. lia.
Qed.

(* ------------------------------------------------------------------ *)
(** ** The generator *)


Lemma quot_rem_bounds : forall s, int_min <= s <= int_max ->
  let k := Z.quot s 127773 in let d := Z.rem s 127773 in
  s = k * 127773 + d /\ -127772 <= d <= 127772 /\ -16807 <= k <= 16807 /\
  (0 <= s -> 0 <= d /\ 0 <= k) /\ (s <= 0 -> d <= 0 /\ k <= 0).
Proof.
  intros s Hs k d. unfold int_min, int_max in Hs.
  pose proof (Z.quot_rem' s 127773) as E. fold k d in E.
  destruct (Z_le_dec 0 s) as [H|H].
  - pose proof (Z.rem_bound_pos s 127773 H ltac:(lia)) as B. fold d in B. lia.
  - pose proof (Z.rem_bound_pos (- s) 127773 ltac:(lia) ltac:(lia)) as B.
    rewrite Z.rem_opp_l in B by lia. fold d in B.
    lia.
Qed.

(** Schrage's decomposition: no overflow for any 32-bit seed, and the result is the modular product *)
Lemma r8_ok : forall seed, int_min <= seed <= int_max ->
  r8_uniform_01 seed = COk (fmult (ofZ ((16807 * seed) mod lcg_p)) unif_const, (16807 * seed) mod lcg_p).
Proof.
  intros s Hs. pose proof (quot_rem_bounds s Hs) as HB. cbv zeta in HB.
  unfold r8_uniform_01. cbv zeta.
  set (k := Z.quot s 127773) in *. set (d := Z.rem s 127773) in *.
  destruct HB as (E & Hd & Hk & Hpos & Hneg).
  unfold int_min, int_max in *.
  assert (Hck : forall z, -2147483648 <= z <= 2147483647 -> ck z = COk z).
  { intros z Hz. unfold ck, int_min, int_max.
    replace ((-2147483648 <=? z) && (z <=? 2147483647)) with true by lia. reflexivity. }
  rewrite (Hck (k * 127773)) by (destruct (Z_le_dec 0 s); lia). cbn [cbind].
  rewrite (Hck (s - k * 127773)) by lia. cbn [cbind].
  replace (s - k * 127773) with d by lia.
  rewrite (Hck (16807 * d)) by lia. cbn [cbind].
  rewrite (Hck (k * 2836)) by lia. cbn [cbind].
  rewrite (Hck (16807 * d - k * 2836)) by (destruct (Z_le_dec 0 s); lia). cbn [cbind].
  set (t := 16807 * d - k * 2836).
  assert (Ht : 16807 * s = t + k * lcg_p) by (unfold t, lcg_p; lia).
  assert (Hr : -2147483647 < t < 2147483647) by (unfold t; destruct (Z_le_dec 0 s); lia).
  assert (Hm : (16807 * s) mod lcg_p = t mod lcg_p) by (rewrite Ht; apply Z_mod_plus_full).
  rewrite Hm. destruct (Z.ltb_spec t 0) as [Hlt|Hge].
  - rewrite (Hck (t + 2147483647)) by lia. cbn [cbind].
    replace (t mod lcg_p) with (t + 2147483647); [reflexivity|].
    unfold lcg_p. rewrite <- (Z_mod_plus_full t 1). rewrite Z.mod_small; lia.
  - cbn [cbind]. rewrite Z.mod_small by (unfold lcg_p; lia). reflexivity.
Qed.

Lemma lcg_range : forall z, 0 <= z mod lcg_p < lcg_p.
Proof. intros z. apply Z.mod_pos_bound. reflexivity. Qed.

Lemma lcg_nonzero : forall s, 0 < s < lcg_p -> 0 < (16807 * s) mod lcg_p.
Proof.
  intros s Hs. pose proof (lcg_range (16807 * s)) as Hr.
  destruct (Z.eq_dec ((16807 * s) mod lcg_p) 0) as [E|E]; [|lia].
  apply Z.mod_divide in E; [|discriminate].
  assert (G : Z.gcd lcg_p 16807 = 1) by (vm_compute; reflexivity).
  apply Z.gauss in E; [|exact G].
  apply Z.divide_pos_le in E; lia.
Qed.

Open Scope R_scope.

Lemma unif_const_spec : f2R unif_const = IZR 4503599629229928 * bpow radix2 (-83) /\ ffin unif_const = true.
Proof. apply flit_spec; lia. Qed.

Lemma bpow_m31 : bpow radix2 (-83) = / IZR (2 ^ 83).
Proof. reflexivity. Qed.

(** the variate *)
Lemma variate_spec : forall z, (0 <= z < lcg_p)%Z ->
  let u := fmult (ofZ z) unif_const in
  ffin u = true /\ 0 <= f2R u < 1 /\ (z = 0%Z -> f2R u = 0) /\ ((0 < z)%Z -> 0 < f2R u).
Proof.
  intros z Hz u. unfold lcg_p in Hz.
  destruct (ofZ_spec z) as [Hz1 Hz2]; [lia|].
  destruct unif_const_spec as [Hc1 Hc2].
  set (c := IZR 4503599629229928 * bpow radix2 (-83)) in *.
  assert (Hcpos : 0 < c) by (unfold c; apply Rmult_lt_0_compat; [apply IZR_lt; lia | apply bpow_gt_0]).
  (* largest representable below 1 *)
  assert (HB : IZR z * c <= 1 - bpow radix2 (-53)).
  { apply Rle_trans with (IZR 2147483646 * c).
    - apply Rmult_le_compat_r; [lra|]. apply IZR_le. lia.
    - unfold c. rewrite bpow_m31. change (bpow radix2 (-53)) with (/ IZR (2 ^ 53)).
      apply Rmult_le_reg_r with (IZR (2 ^ 83)); [apply IZR_lt; reflexivity|].
      rewrite Rmult_minus_distr_r. rewrite !Rmult_assoc, Rinv_l, Rmult_1_r, Rmult_1_l by (apply not_0_IZR; discriminate).
      replace (/ IZR (2 ^ 53) * IZR (2 ^ 83)) with (IZR (2 ^ 30)).
      + rewrite <- mult_IZR, <- minus_IZR. apply IZR_le. vm_compute. discriminate.
      + replace (2 ^ 83)%Z with (2 ^ 53 * 2 ^ 30)%Z by reflexivity. rewrite mult_IZR.
        rewrite <- Rmult_assoc, Rinv_l, Rmult_1_l; [reflexivity | apply not_0_IZR; discriminate]. }
  assert (Hz0 : 0 <= IZR z) by (apply IZR_le; lia).
  assert (H0 : 0 <= IZR z * c) by (apply Rmult_le_pos; lra).
  assert (Hb53 : 0 < bpow radix2 (-53)) by apply bpow_gt_0.
  destruct (fmult_spec (ofZ z) unif_const 0 Hz2 Hc2) as [Hu1 Hu2]; [lia| rewrite Hz1, Hc1, Rabs_pos_eq by exact H0; change (bpow radix2 0) with 1; lra |].
  fold u in Hu1, Hu2. rewrite Hz1, Hc1 in Hu1.
  split; [exact Hu2|]. rewrite Hu1.
  assert (Hf : fmt (1 - bpow radix2 (-53))).
  { replace (1 - bpow radix2 (-53)) with (IZR (2 ^ 53 - 1) * bpow radix2 (-53)).
    - apply fmt_F2R; lia.
    - rewrite minus_IZR, Rmult_minus_distr_r. change (bpow radix2 (-53)) with (/ IZR (2 ^ 53)).
      rewrite Rinv_r by (apply not_0_IZR; discriminate). lra. }
  repeat split.
  - rewrite <- rnd_0. apply rnd_le. exact H0.
  - apply Rle_lt_trans with (1 - bpow radix2 (-53)); [|lra].
    rewrite <- (rnd_id _ Hf). apply rnd_le. exact HB.
  - intros ->. rewrite Rmult_0_l. apply rnd_0.
  - intros Hzp. apply Rlt_le_trans with (bpow radix2 (-100)); [apply bpow_gt_0|].
    rewrite <- (rnd_id (bpow radix2 (-100))) by (apply fmt_bpow; lia). apply rnd_le.
    apply Rle_trans with (1 * c).
    + rewrite Rmult_1_l. unfold c. apply Rle_trans with (1 * bpow radix2 (-83)).
      * rewrite Rmult_1_l. apply bpow_le. lia.
      * apply Rmult_le_compat_r; [apply bpow_ge_0|]. apply IZR_le. lia.
    + apply Rmult_le_compat_r; [lra|]. apply IZR_le. lia.
Qed.

Open Scope Z_scope.

(* ------------------------------------------------------------------ *)
(** ** Starting value of the search *)

Lemma Btrunc_spec : forall x : f64, ffin x = true -> f_trunc x = Ztrunc (f2R x).
Proof.
  intros x Hx. unfold f_trunc. apply eq_IZR. 
  rewrite (Btrunc_correct 53 1024 _ x).
  unfold round, F2R, scaled_mantissa, cexp, FIX_exp, f2R. simpl.
  rewrite !Rmult_1_r. reflexivity.
Qed.

Lemma nlm_bounds : forall ia id ie, 0 <= ia <= ie -> 0 <= id <= ie -> 0 < ie -> ie <= int_max ->
  ia * id <= int_max ->
  Z.max 0 (ia + id - ie) <= nlm_start (ia * id) ie <= Z.min ia id.
Proof.
  intros ia id ie Hia Hid Hie Hmax Hp. unfold int_max in *.
  set (L := Z.max 0 (ia + id - ie)). set (U := Z.min ia id).
  assert (Hp0 : 0 <= ia * id) by nia.
  destruct (ofZ_spec (ia * id)) as [Hp1 Hp2]; [lia|].
  destruct (ofZ_spec ie) as [Hi1 Hi2]; [lia|].
  destruct (flit_spec 1 (-1)) as [Hh1 Hh2]; [lia|lia|lia|]. fold fhalf in Hh1, Hh2.
  assert (Hh : f2R fhalf = (1/2)%R) by (rewrite Hh1; simpl; lra).
  assert (HieR : (0 < IZR ie)%R) by (apply IZR_lt; lia).
  set (q := (IZR (ia * id) / IZR ie)%R).
  assert (HLq : (IZR L <= q)%R).
  { unfold q. apply Rmult_le_reg_r with (IZR ie); [exact HieR|].
    unfold Rdiv. rewrite Rmult_assoc, Rinv_l, Rmult_1_r by lra.
    rewrite <- mult_IZR. apply IZR_le. unfold L. nia. }
  assert (HqU : (q <= IZR U)%R).
  { unfold q. apply Rmult_le_reg_r with (IZR ie); [exact HieR|].
    unfold Rdiv. rewrite Rmult_assoc, Rinv_l, Rmult_1_r by lra.
    rewrite <- mult_IZR. apply IZR_le. unfold U. nia. }
  assert (HL0 : 0 <= L) by (unfold L; lia).
  assert (HUm : U <= 2147483647) by (unfold U; lia).
  assert (HLR : (0 <= IZR L)%R) by (apply IZR_le; exact HL0).
  assert (HUR : (IZR U <= bpow radix2 31)%R) by (change (bpow radix2 31) with (IZR (2 ^ 31)); apply IZR_le; lia).
  destruct (fdiv_spec (ofZ (ia * id)) (ofZ ie) 31 Hp2) as [Hd1 Hd2];
    [rewrite Hi1; lra | lia | rewrite Hp1, Hi1; fold q; rewrite Rabs_pos_eq; lra |].
  rewrite Hp1, Hi1 in Hd1. fold q in Hd1.
  set (d := fdiv (ofZ (ia * id)) (ofZ ie)) in *.
  assert (HdL : (IZR L <= f2R d)%R).
  { rewrite Hd1. rewrite <- (rnd_id (IZR L)) by (apply fmt_IZR; unfold L; lia). apply rnd_le. exact HLq. }
  assert (HdU : (f2R d <= IZR U)%R).
  { rewrite Hd1. rewrite <- (rnd_id (IZR U)) by (apply fmt_IZR; unfold U; lia). apply rnd_le. exact HqU. }
  assert (H31 : (bpow radix2 32 = 2 * bpow radix2 31)%R) by (change 32 with (1 + 31); rewrite bpow_plus; reflexivity).
  assert (H31' : (1 <= bpow radix2 31)%R) by (change (bpow radix2 31) with (IZR (2 ^ 31)); apply IZR_le; lia).
  destruct (fplus_spec d fhalf 32 Hd2 Hh2) as [Hs1 Hs2]; [lia| rewrite Hh, Rabs_pos_eq; lra |].
  rewrite Hh in Hs1.
  unfold nlm_start. fold d. rewrite Btrunc_spec by exact Hs2. rewrite Hs1.
  split.
  - rewrite <- (Ztrunc_IZR L). apply Ztrunc_le.
    rewrite <- (rnd_id (IZR L)) by (apply fmt_IZR; unfold L; lia). apply rnd_le. lra.
  - assert (Hhalf : fmt (IZR U + 1/2)).
    { replace (IZR U + 1/2)%R with (IZR (2 * U + 1) * bpow radix2 (-1))%R.
      - apply fmt_F2R; unfold U; lia.
      - rewrite plus_IZR, mult_IZR. simpl. lra. }
    assert (Hle : (rnd (f2R d + 1/2) <= IZR U + 1/2)%R).
    { rewrite <- (rnd_id _ Hhalf). apply rnd_le. lra. }
    apply Z.le_trans with (Ztrunc (IZR U + 1/2)); [apply Ztrunc_le; exact Hle|].
    assert (HU0 : (0 <= IZR U)%R) by (apply IZR_le; unfold U; lia).
    rewrite Ztrunc_floor by lra.
    assert (Hfl : Zfloor (IZR U + 1/2) < U + 1).
    { apply lt_IZR. apply Rle_lt_trans with (IZR U + 1/2)%R; [apply Zfloor_lb|]. rewrite plus_IZR. lra. }
    lia.
Qed.

(** non-negative and not NaN *)
Definition fnn (x : f64) : Prop := match x with
  | B754_nan => False
  | B754_zero _ => True
  | B754_infinity s => s = false
  | B754_finite s _ _ _ => s = false
  end.

Lemma fnn_fin : forall x : f64, ffin x = true -> (fnn x <-> (0 <= f2R x)%R).
Proof.
  intros [s|s| |s m e He] H; try discriminate; simpl.
  - unfold f2R; cbn [B2R]. split; [intros; lra|auto].
  - unfold f2R. cbn [B2R]. split.
    + intros ->. apply F2R_ge_0. simpl. lia.
    + intros Hx. destruct s; [|reflexivity]. exfalso.
      assert (F2R (Float radix2 (cond_Zopp true (Z.pos m)) e) < 0)%R by (apply F2R_lt_0; simpl; lia). lra.
Qed.

Lemma fnn_sign : forall x : f64, is_nan x = false -> Bsign x = false -> fnn x.
Proof. intros [s|s| |s m e He] H1 H2; simpl in *; auto; discriminate. Qed.

Lemma fnn_notnan : forall x : f64, fnn x -> is_nan x = false.
Proof. intros [s|s| |s m e He]; simpl; auto; tauto. Qed.

Lemma SF_pos_inf : forall x : f64, B2SF x = binary_overflow 53 1024 mode_NE false -> fnn x.
Proof. intros [s|s| |s m e He] H; try exact I; inversion H; reflexivity. Qed.

Lemma pos_finite : forall y : f64, ffin y = true -> (0 < f2R y)%R -> Bsign y = false.
Proof.
  intros [s|s| |s m e He] H1 H2; try discriminate; unfold f2R in H2; cbn [B2R] in H2; [lra|].
  destruct s; [|reflexivity]. exfalso.
  assert (F2R (Float radix2 (cond_Zopp true (Z.pos m)) e) < 0)%R by (apply F2R_lt_0; simpl; lia). lra.
Qed.

Lemma fnn_mult : forall x y : f64, fnn x -> ffin y = true -> (0 < f2R y)%R -> fnn (fmult x y).
Proof.
  intros x y Hx Hy Hpos.
  pose proof (pos_finite y Hy Hpos) as Hs.
  destruct x as [s|s| |s m e He]; try contradiction.
  - destruct y as [sy|sy| |sy my ey Hey]; try discriminate; exact I.
  - simpl in Hx. subst s. destruct y as [sy|sy| |sy my ey Hey]; try discriminate.
    + unfold f2R in Hpos. cbn [B2R] in Hpos. lra.
    + simpl in Hs. subst sy. reflexivity.
  - simpl in Hx. subst s. set (x := B754_finite false m e He).
    pose proof (Bmult_correct 53 1024 _ _ mode_NE x y) as H.
    destruct (Rlt_bool _ _).
    + destruct H as (_ & H2 & H3). fold (fmult x y) in *.
      assert (Hn : is_nan (fmult x y) = false).
      { destruct (fmult x y); try reflexivity. change (is_finite x) with true in H2. unfold ffin in Hy. rewrite Hy in H2. discriminate. }
      apply fnn_sign; [exact Hn|]. rewrite H3 by exact Hn. rewrite Hs. reflexivity.
    + rewrite Hs in H. apply SF_pos_inf. exact H.
Qed.

Lemma fnn_div : forall x y : f64, fnn x -> ffin y = true -> (0 < f2R y)%R -> fnn (fdiv x y).
Proof.
  intros x y Hx Hy Hpos.
  pose proof (pos_finite y Hy Hpos) as Hs.
  destruct x as [s|s| |s m e He]; try contradiction.
  - destruct y as [sy|sy| |sy my ey Hey]; try discriminate; [|exact I].
    unfold f2R in Hpos. cbn [B2R] in Hpos. lra.
  - simpl in Hx. subst s. destruct y as [sy|sy| |sy my ey Hey]; try discriminate.
    + unfold f2R in Hpos. cbn [B2R] in Hpos. lra.
    + simpl in Hs. subst sy. reflexivity.
  - simpl in Hx. subst s. set (x := B754_finite false m e He).
    assert (Hy0 : B2R y <> 0%R) by (unfold f2R in Hpos; lra).
    pose proof (Bdiv_correct 53 1024 _ _ mode_NE x y Hy0) as H.
    destruct (Rlt_bool _ _).
    + destruct H as (_ & H2 & H3). fold (fdiv x y) in *.
      assert (Hn : is_nan (fdiv x y) = false).
      { destruct (fdiv x y); try reflexivity. change (is_finite x) with true in H2. discriminate. }
      apply fnn_sign; [exact Hn|]. rewrite H3 by exact Hn. rewrite Hs. reflexivity.
    + rewrite Hs in H. apply SF_pos_inf. exact H.
Qed.

Lemma fnn_plus : forall x y : f64, fnn x -> fnn y -> fnn (fplus x y).
Proof.
  intros x y Hx Hy.
  destruct (is_finite x) eqn:Fx; [destruct (is_finite y) eqn:Fy|].
  - pose proof (Bplus_correct 53 1024 _ _ mode_NE x y Fx Fy) as H.
    apply (fnn_fin x) in Hx; [|exact Fx]. apply (fnn_fin y) in Hy; [|exact Fy].
    destruct (Rlt_bool _ _).
    + destruct H as (H1 & H2 & _). fold (fplus x y) in *.
      apply fnn_fin; [exact H2|]. unfold f2R. rewrite H1.
      change (0 <= rnd (B2R x + B2R y))%R. rewrite <- rnd_0. apply rnd_le. unfold f2R in *. lra.
    + destruct H as (H1 & H2). fold (fplus x y) in *.
      assert (Hsx : Bsign x = false).
      { destruct x as [[|]|s| |s m e He]; try discriminate; try reflexivity.
        - exfalso. unfold fplus in H1. destruct y as [sy|sy| |sy my ey Hey].
          + destruct sy; discriminate H1.
          + discriminate Fy.
          + discriminate Fy.
          + assert (Hsy : sy = false) by (apply (fnn_fin (B754_finite sy my ey Hey) eq_refl) in Hy; exact Hy).
            subst sy. discriminate H1.
        - apply (fnn_fin (B754_finite s m e He) eq_refl) in Hx. exact Hx. }
      rewrite Hsx in H1. apply SF_pos_inf. exact H1.
  - destruct y as [s|s| |s m e He]; try discriminate; try contradiction.
    simpl in Hy. subst s.
    destruct x as [s|s| |s m e He]; try discriminate; reflexivity.
  - destruct x as [s|s| |s m e He]; try discriminate; try contradiction.
    simpl in Hx. subst s.
    destruct y as [s|s| |s m e He]; try contradiction; try reflexivity.
    simpl in Hy. subst s. reflexivity.
Qed.

Lemma fnn_scale : forall x j d, fnn x -> 0 < j <= int_max -> 0 < d <= int_max -> fnn (fdiv (fmult x (ofZ j)) (ofZ d)).
Proof.
  intros x j d Hx Hj Hd. unfold int_max in *.
  destruct (ofZ_spec j) as [J1 J2]; [lia|]. destruct (ofZ_spec d) as [D1 D2]; [lia|].
  apply fnn_div; [apply fnn_mult|..]; try assumption; [rewrite J1|rewrite D1]; apply IZR_lt; lia.
Qed.

(* ------------------------------------------------------------------ *)
(** ** The search loops stay inside the feasible range *)

Definition lo (ia id ie : Z) : Z := Z.max 0 (ia + id - ie).
Definition hi (ia id : Z) : Z := Z.min ia id.

Lemma prod_small : forall a b, 0 <= a <= 46340 -> 0 <= b <= 46340 -> int_min <= a * b <= int_max.
Proof. intros a b Ha Hb. unfold int_min, int_max. nia. Qed.

Lemma mul_pos_split : forall a b, 0 <= a -> 0 <= b -> a * b <> 0 -> 0 < a /\ 0 < b.
Proof. intros a b Ha Hb H. split; nia. Qed.

Section Loops.
Variables libm_exp libm_log : f64 -> f64.
Variables small term contract : Prop.

Lemma dec_loop_wp : forall fuel ia id ie ii r lsp nll y s,
  0 <= ia <= ie -> 0 <= id <= ie -> ie <= int_max -> ii = ie - ia - id ->
  (small -> ie <= 46340) ->
  lo ia id ie <= nll <= hi ia id -> nll < Z.of_nat fuel ->
  (contract -> fnn y /\ fnn s) ->
  wp small term (fun d => match d with
                          | DFound n => lo ia id ie <= n <= hi ia id
                          | DEnd n y' s' _ => lo ia id ie <= n <= hi ia id /\ (contract -> fnn y' /\ fnn s')
                          end)
     (dec_loop fuel ia id ii r lsp nll y s).
Proof.
  unfold lo, hi.
  induction fuel as [|fuel IH]; intros ia id ie ii r lsp nll y s Hia Hid Hie Hii Hsm Hn Hf Hc; [lia|].
  cbn [dec_loop]. subst ii. unfold int_max in Hie.
  apply wp_bind_ck; [unfold int_min, int_max; lia|]. intros _.
  apply wp_bind_ck; [intros Hs; apply Hsm in Hs; apply prod_small; lia|]. intros Hj.
  destruct (Z.eqb_spec (nll * (ie - ia - id + nll)) 0) as [E|E]; [simpl; split; [lia|exact Hc]|].
  apply mul_pos_split in E; [|lia|lia].
  apply wp_bind_ck; [unfold int_min, int_max; lia|]. intros _.
  apply wp_bind_ck; [unfold int_min, int_max; lia|]. intros _.
  apply wp_bind_ck; [unfold int_min, int_max; lia|]. intros _.
  apply wp_bind_ck; [intros Hs; apply Hsm in Hs; apply prod_small; lia|]. intros Hden.
  cbv zeta. destruct (fle r _); [simpl; lia|].
  set (y' := fdiv _ _).
  assert (Hc' : contract -> fnn y' /\ fnn (fplus s y')).
  { intros C. destruct (Hc C) as [Cy Cs].
    assert (Cy' : fnn y') by (apply fnn_scale; [exact Cy|split; [apply Z.mul_pos_pos; lia|apply Hj]|split; [apply Z.mul_pos_pos; lia|apply Hden]]).
    split; [exact Cy'|]. apply fnn_plus; assumption. }
  destruct lsp; cbn [negb]; cbv iota; [|simpl; split; [lia|exact Hc']].
  apply (IH ia id ie); try assumption; try reflexivity; try (unfold int_max); lia.
Qed.

Lemma inc_loop_wp : forall fuel dfuel ia id ie ii r nlm nll x y s lsm,
  0 <= ia <= ie -> 0 <= id <= ie -> ie <= int_max -> ii = ie - ia - id ->
  (small -> ie <= 46340) ->
  lo ia id ie <= nlm <= hi ia id -> ia - nlm < Z.of_nat fuel ->
  lo ia id ie <= nll <= hi ia id -> ia < Z.of_nat dfuel ->
  (contract -> fnn x /\ fnn y /\ fnn s) ->
  wp small term (fun d => match d with Found n => lo ia id ie <= n <= hi ia id | Exhausted s' => contract -> fnn s' end)
     (inc_loop fuel dfuel ia id ii r nlm nll x y s lsm).
Proof.
  induction fuel as [|fuel IH]; intros dfuel ia id ie ii r nlm nll x y s lsm Hia Hid Hie Hii Hsm Hn Hf Hl Hd Hc.
  { unfold hi in *. lia. }
  cbn [inc_loop]. unfold int_max in Hie.
  assert (Hn' := Hn). unfold lo, hi in Hn'.
  apply wp_bind_ck; [unfold int_min, int_max; lia|]. intros _.
  apply wp_bind_ck; [unfold int_min, int_max; lia|]. intros _.
  apply wp_bind_ck; [intros Hs; apply Hsm in Hs; apply prod_small; lia|]. intros Hj.
  destruct (Z.eqb_spec ((id - nlm) * (ia - nlm)) 0) as [E|E].
  - destruct lsm; [simpl; intros C; apply (Hc C)|].
    eapply wp_bind; [apply (dec_loop_wp dfuel ia id ie); try assumption; try (unfold hi in Hl; lia); intros C; destruct (Hc C) as (? & ? & ?); auto|].
    intros [n|n ? ? ?] Hd'; [exact Hd'|]. intros C. apply (proj2 Hd' C).
  - apply mul_pos_split in E; [|lia|lia]. cbv zeta.
    apply wp_bind_ck; [unfold int_min, int_max; lia|]. intros _.
    apply wp_bind_ck; [unfold int_min, int_max; subst ii; lia|]. intros _.
    apply wp_bind_ck; [intros Hs; apply Hsm in Hs; apply prod_small; subst ii; lia|]. intros Hden.
    cbv zeta. set (x' := fdiv _ _).
    assert (Hc' : contract -> fnn x' /\ fnn (fplus s x')).
    { intros C. destruct (Hc C) as (Cx & Cy & Cs).
      assert (Cx' : fnn x') by (apply fnn_scale; [exact Cx|split; [apply Z.mul_pos_pos; lia|apply Hj]|split; [apply Z.mul_pos_pos; subst ii; lia|apply Hden]]).
      split; [exact Cx'|]. apply fnn_plus; assumption. }
    destruct (fle r _); [simpl; unfold lo, hi; lia|].
    destruct lsm.
    + apply (IH dfuel ia id ie); try assumption; try (unfold lo, hi; lia).
      intros C. destruct (Hc C) as (? & ? & ?), (Hc' C); auto.
    + eapply wp_bind; [apply (dec_loop_wp dfuel ia id ie); try assumption; try (unfold hi in Hl; lia); intros C; destruct (Hc C) as (? & ? & ?), (Hc' C); auto|].
      intros [n|n ? ? ?] Hd'; [exact Hd'|].
      apply (IH dfuel ia id ie); try assumption; try (unfold lo, hi; lia).
      * apply Hd'.
      * intros C. destruct (Hc' C), (proj2 Hd' C); auto.
Qed.

(* ------------------------------------------------------------------ *)
(** ** Termination: the accumulated probability of an exhausted pass is one number,
    it was compared with the variate, and it is non-negative *)

Lemma dec_loop_end_indep : forall fuel ia id ii r1 r2 lsp nll y s n1 y1 s1 l1 n2 y2 s2 l2,
  dec_loop fuel ia id ii r1 lsp nll y s = COk (DEnd n1 y1 s1 l1) ->
  dec_loop fuel ia id ii r2 lsp nll y s = COk (DEnd n2 y2 s2 l2) ->
  n1 = n2 /\ y1 = y2 /\ s1 = s2 /\ l1 = l2.
Proof.
  induction fuel as [|fuel IH]; intros ia id ii r1 r2 lsp nll y s n1 y1 s1 l1 n2 y2 s2 l2 H1 H2; [discriminate|].
  cbn [dec_loop] in H1, H2.
  destruct (ck (ii + nll)) as [t|]; [cbn [cbind] in *|discriminate].
  destruct (ck (nll * t)) as [j|]; [cbn [cbind] in *|discriminate].
  destruct (j =? 0).
  { inversion H1; inversion H2; subst; auto. }
  destruct (ck (nll - 1)) as [nll'|]; [cbn [cbind] in *|discriminate].
  destruct (ck (id - nll')) as [a|]; [cbn [cbind] in *|discriminate].
  destruct (ck (ia - nll')) as [b|]; [cbn [cbind] in *|discriminate].
  destruct (ck (a * b)) as [ab|]; [cbn [cbind] in *|discriminate].
  cbv zeta in H1, H2.
  destruct (fle r1 _); [discriminate|]. destruct (fle r2 _); [discriminate|].
  destruct (negb lsp).
  - inversion H1; inversion H2; subst; auto.
  - eapply IH; eassumption.
Qed.

Lemma inc_loop_exh_indep : forall fuel dfuel ia id ii r1 r2 nlm nll x y s lsm s1 s2,
  inc_loop fuel dfuel ia id ii r1 nlm nll x y s lsm = COk (Exhausted s1) ->
  inc_loop fuel dfuel ia id ii r2 nlm nll x y s lsm = COk (Exhausted s2) -> s1 = s2.
Proof.
  induction fuel as [|fuel IH]; intros dfuel ia id ii r1 r2 nlm nll x y s lsm s1 s2 H1 H2; [discriminate|].
  cbn [inc_loop] in H1, H2.
  destruct (ck (id - nlm)) as [a|]; [cbn [cbind] in *|discriminate].
  destruct (ck (ia - nlm)) as [b|]; [cbn [cbind] in *|discriminate].
  destruct (ck (a * b)) as [j|]; [cbn [cbind] in *|discriminate].
  destruct (j =? 0).
  - destruct lsm; [congruence|].
    destruct (dec_loop dfuel ia id ii r1 true nll y s) as [[|? ? ? ?]|] eqn:D1; cbn [cbind] in H1; try discriminate.
    destruct (dec_loop dfuel ia id ii r2 true nll y s) as [[|? ? ? ?]|] eqn:D2; cbn [cbind] in H2; try discriminate.
    destruct (dec_loop_end_indep _ _ _ _ _ _ _ _ _ _ _ _ _ _ _ _ _ _ D1 D2) as (_ & _ & E & _). congruence.
  - destruct (ck (nlm + 1)) as [nlm'|]; [cbn [cbind] in *|discriminate].
    destruct (ck (ii + nlm')) as [t|]; [cbn [cbind] in *|discriminate].
    destruct (ck (nlm' * t)) as [den|]; [cbn [cbind] in *|discriminate].
    cbv zeta in H1, H2.
    destruct (fle r1 _); [discriminate|]. destruct (fle r2 _); [discriminate|].
    destruct lsm; [eapply IH; eassumption|].
    match type of H1 with cbind ?m _ = _ => destruct m as [[|? ? ? ?]|] eqn:D1; cbn [cbind] in H1; try discriminate end.
    match type of H2 with cbind ?m _ = _ => destruct m as [[|? ? ? ?]|] eqn:D2; cbn [cbind] in H2; try discriminate end.
    destruct (dec_loop_end_indep _ _ _ _ _ _ _ _ _ _ _ _ _ _ _ _ _ _ D1 D2) as (-> & -> & -> & ->).
    eapply IH; eassumption.
Qed.

Lemma dec_loop_end_tested : forall fuel ia id ii r lsp nll y s n1 y1 s1 l1,
  fle r s = false -> dec_loop fuel ia id ii r lsp nll y s = COk (DEnd n1 y1 s1 l1) -> fle r s1 = false.
Proof.
  induction fuel as [|fuel IH]; intros ia id ii r lsp nll y s n1 y1 s1 l1 H0 H1; [discriminate|].
  cbn [dec_loop] in H1.
  destruct (ck (ii + nll)) as [t|]; [cbn [cbind] in *|discriminate].
  destruct (ck (nll * t)) as [j|]; [cbn [cbind] in *|discriminate].
  destruct (j =? 0).
  { inversion H1; subst; auto. }
  destruct (ck (nll - 1)) as [nll'|]; [cbn [cbind] in *|discriminate].
  destruct (ck (id - nll')) as [a|]; [cbn [cbind] in *|discriminate].
  destruct (ck (ia - nll')) as [b|]; [cbn [cbind] in *|discriminate].
  destruct (ck (a * b)) as [ab|]; [cbn [cbind] in *|discriminate].
  cbv zeta in H1. match type of H1 with context [fle r ?z] => destruct (fle r z) eqn:E end; [discriminate|].
  destruct (negb lsp).
  - inversion H1; subst; auto.
  - eapply IH; eassumption.
Qed.

Lemma inc_loop_exh_tested : forall fuel dfuel ia id ii r nlm nll x y s lsm s1,
  fle r s = false -> inc_loop fuel dfuel ia id ii r nlm nll x y s lsm = COk (Exhausted s1) -> fle r s1 = false.
Proof.
  induction fuel as [|fuel IH]; intros dfuel ia id ii r nlm nll x y s lsm s1 H0 H1; [discriminate|].
  cbn [inc_loop] in H1.
  destruct (ck (id - nlm)) as [a|]; [cbn [cbind] in *|discriminate].
  destruct (ck (ia - nlm)) as [b|]; [cbn [cbind] in *|discriminate].
  destruct (ck (a * b)) as [j|]; [cbn [cbind] in *|discriminate].
  destruct (j =? 0).
  - destruct lsm; [congruence|].
    destruct (dec_loop dfuel ia id ii r true nll y s) as [[|? ? ? ?]|] eqn:D1; cbn [cbind] in H1; try discriminate.
    inversion H1; subst. eapply dec_loop_end_tested; eassumption.
  - destruct (ck (nlm + 1)) as [nlm'|]; [cbn [cbind] in *|discriminate].
    destruct (ck (ii + nlm')) as [t|]; [cbn [cbind] in *|discriminate].
    destruct (ck (nlm' * t)) as [den|]; [cbn [cbind] in *|discriminate].
    cbv zeta in H1. match type of H1 with context [fle r ?z] => destruct (fle r z) eqn:E end; [discriminate|].
    destruct lsm; [eapply IH; eassumption|].
    match type of H1 with cbind ?m _ = _ => destruct m as [[|? ? ? ?]|] eqn:D1; cbn [cbind] in H1; try discriminate end.
    eapply IH; [|exact H1]. eapply dec_loop_end_tested; eassumption.
Qed.
End Loops.


(* ------------------------------------------------------------------ *)
(** ** The log-factorial table is finite *)

Definition fbd (x : f64) (n : Z) : Prop := ffin x = true /\ (Rabs (f2R x) <= IZR n)%R.

Lemma fbd_plus : forall x y n m, fbd x n -> fbd y m -> 0 <= n + m <= 2 ^ 52 -> fbd (fplus x y) (n + m).
Proof.
  intros x y n m [Fx Bx] [Fy By] H.
  assert (HB : (Rabs (f2R x + f2R y) <= IZR (n + m))%R).
  { rewrite plus_IZR. apply Rle_trans with (Rabs (f2R x) + Rabs (f2R y))%R; [apply Rabs_triang|lra]. }
  destruct (fplus_spec x y 52 Fx Fy) as [S1 S2]; [lia| |].
  - apply Rle_trans with (1 := HB). change (bpow radix2 52) with (IZR (2 ^ 52)). apply IZR_le. lia.
  - split; [exact S2|]. rewrite S1. apply rnd_abs_le; [|exact HB]. apply fmt_IZR. lia.
Qed.

Lemma fbd_minus : forall x y n m, fbd x n -> fbd y m -> 0 <= n + m <= 2 ^ 52 -> fbd (fminus x y) (n + m).
Proof.
  intros x y n m [Fx Bx] [Fy By] H.
  assert (HB : (Rabs (f2R x - f2R y) <= IZR (n + m))%R).
  { rewrite plus_IZR. unfold Rminus. apply Rle_trans with (Rabs (f2R x) + Rabs (- f2R y))%R; [apply Rabs_triang|].
    rewrite Rabs_Ropp. lra. }
  destruct (fminus_spec x y 52 Fx Fy) as [S1 S2]; [lia| |].
  - apply Rle_trans with (1 := HB). change (bpow radix2 52) with (IZR (2 ^ 52)). apply IZR_le. lia.
  - split; [exact S2|]. rewrite S1. apply rnd_abs_le; [|exact HB]. apply fmt_IZR. lia.
Qed.

Lemma fbd_weak : forall x n m, fbd x n -> n <= m -> fbd x m.
Proof. intros x n m [F B] H. split; [exact F|]. apply Rle_trans with (1 := B). apply IZR_le. exact H. Qed.


Lemma fle0_fnn : forall x, fle fzero x = true -> fnn x.
Proof. intros [s|s| |s m e He] H; simpl; auto; try discriminate; destruct s; try reflexivity; discriminate. Qed.

Section Fact.
Variable libm_log : f64 -> f64.

Lemma fact_from_length : forall n i x, length (fact_from libm_log i n x) = n.
Proof. induction n as [|n IH]; intros; simpl; auto. Qed.

Lemma fact_table_length : forall n, 0 <= n -> Z.of_nat (length (fact_table libm_log n)) = n + 1.
Proof. intros n H. unfold fact_table. cbn [length]. rewrite fact_from_length. lia. Qed.

Hypothesis Hlog : forall i, 1 <= i <= int_max ->
     ffin (libm_log (ofZ i)) = true /\ (0 <= f2R (libm_log (ofZ i)) <= 32)%R.

Lemma fact_from_bd : forall n i x, 1 <= i -> i + Z.of_nat n - 1 <= int_max -> fbd x (32 * (i - 1)) ->
  forall k, (k < n)%nat -> fbd (nth k (fact_from libm_log i n x) fzero) (32 * (i + Z.of_nat k)).
Proof.
  unfold int_max.
  induction n as [|n IH]; intros i x Hi Hn Hx k Hk; [lia|].
  cbn [fact_from].
  assert (Hx' : fbd (fplus x (libm_log (ofZ i))) (32 * (i + 1 - 1))).
  { replace (32 * (i + 1 - 1)) with (32 * (i - 1) + 32) by lia. apply fbd_plus; [exact Hx| |lia].
    destruct (Hlog i) as [F B]; [unfold int_max; lia|]. split; [exact F|]. rewrite Rabs_pos_eq; lra. }
  destruct k as [|k]; cbn [nth].
  - eapply fbd_weak; [exact Hx'|lia].
  - eapply fbd_weak; [apply IH; [lia|lia|exact Hx'|lia]|lia].
Qed.

Lemma fact_bd : forall ntot k, 0 <= ntot <= int_max -> 0 <= k <= ntot ->
  fbd (nth (Z.to_nat k) (fact_table libm_log ntot) fzero) (2 ^ 37).
Proof.
  intros ntot k Ht Hk. unfold int_max in *. unfold fact_table.
  destruct (Z.to_nat k) as [|k'] eqn:E; cbn [nth].
  - split; [reflexivity|]. unfold f2R, fzero. cbn [B2R]. rewrite Rabs_R0. apply IZR_le. lia.
  - eapply fbd_weak; [apply fact_from_bd; unfold int_max; try lia|lia].
    split; [reflexivity|]. unfold f2R, fzero. cbn [B2R]. rewrite Rabs_R0. apply IZR_le. lia.
Qed.
End Fact.

(* ------------------------------------------------------------------ *)
(** ** One cell *)

Section Attempts.
Variables libm_exp libm_log : f64 -> f64.
Variables small term : Prop.

Definition once (fact : list f64) (ia ib ic id ie ii : Z) (r : f64) : cres (sres f64) :=
      do p <- ck (ia * id);
      do nlm <- ck (nlm_start p ie);
      do iap <- ck (ia + 1);
      do idp <- ck (id + 1);
      do igp <- ck (idp - nlm);
      do ihp <- ck (iap - nlm);
      do nlmp <- ck (nlm + 1);
      do iip <- ck (ii + nlmp);
      do f1 <- rd fact (iap - 1);
      do f2 <- rd fact ib;
      do f3 <- rd fact ic;
      do f4 <- rd fact (idp - 1);
      do f5 <- rd fact ie;
      do f6 <- rd fact (nlmp - 1);
      do f7 <- rd fact (igp - 1);
      do f8 <- rd fact (ihp - 1);
      do f9 <- rd fact (iip - 1);
      let x := libm_exp (fminus (fminus (fminus (fminus (fminus
                 (fplus (fplus (fplus f1 f2) f3) f4) f5) f6) f7) f8) f9) in
      if fle r x then COk (Found nlm)
      else inc_loop (S (Z.to_nat ia)) (S (Z.to_nat ia)) ia id ii r nlm nlm x x x false.

Lemma attempts_S : forall fuel fact ia ib ic id ie ii r seed,
  attempts libm_exp (S fuel) fact ia ib ic id ie ii r seed =
  do f <- once fact ia ib ic id ie ii r;
  match f with
  | Found n => COk (n, seed)
  | Exhausted s =>
      do u <- r8_uniform_01 seed;
      attempts libm_exp fuel fact ia ib ic id ie ii (fmult s (fst u)) (snd u)
  end.
Proof.
  intros. cbn [attempts]. unfold once.
  repeat (match goal with |- cbind ?m _ = _ => destruct m; [cbn [cbind]|reflexivity] end).
  cbv zeta. destruct (fle r _); reflexivity.
Qed.

Ltac once_inv H :=
  repeat (match type of H with cbind ?m _ = _ => destruct m; [cbn [cbind] in H|discriminate H] end).

Lemma once_indep : forall fact ia ib ic id ie ii r1 r2 s1 s2,
  once fact ia ib ic id ie ii r1 = COk (Exhausted s1) ->
  once fact ia ib ic id ie ii r2 = COk (Exhausted s2) -> s1 = s2.
Proof.
  intros fact ia ib ic id ie ii r1 r2 s1 s2. unfold once.
  repeat (match goal with |- cbind ?m _ = _ -> _ => destruct m; [cbn [cbind]|intros; discriminate] end).
  cbv zeta. destruct (fle r1 _); [intros; discriminate|].
  intros H1. destruct (fle r2 _); [intros; discriminate|].
  intros H2. eapply inc_loop_exh_indep; eassumption.
Qed.

Lemma once_tested : forall fact ia ib ic id ie ii r s,
  once fact ia ib ic id ie ii r = COk (Exhausted s) -> fle r s = false.
Proof.
  intros fact ia ib ic id ie ii r s. unfold once.
  repeat (match goal with |- cbind ?m _ = _ -> _ => destruct m; [cbn [cbind]|intros; discriminate] end).
  cbv zeta. match goal with |- context [if fle r ?z then _ else _] => destruct (fle r z) eqn:E end; [intros; discriminate|].
  intros H. eapply inc_loop_exh_tested; eassumption.
Qed.

Definition geom (ntot ia ib ic id ie ii : Z) : Prop :=
  0 <= ia <= ie /\ 0 <= id <= ie /\ 0 < ie <= ntot /\ ntot < int_max /\
  ib = ie - ia /\ ic = ie - id /\ ii = ie - ia - id.

Lemma once_wp : forall ntot ia ib ic id ie ii r,
  geom ntot ia ib ic id ie ii -> (small -> ntot <= 46340) ->
  wp small term (fun d => match d with
      | Found n => lo ia id ie <= n <= hi ia id
      | Exhausted s => libm_ok libm_exp libm_log -> fnn s end)
    (once (fact_table libm_log ntot) ia ib ic id ie ii r).
Proof.
  intros ntot ia ib ic id ie ii r (Hia & Hid & Hie & Hnt & Hib & Hic & Hii) Hsm.
  unfold once. unfold int_max in Hnt.
  assert (Hnn : 0 <= ia * id) by (apply Z.mul_nonneg_nonneg; lia).
  apply wp_bind_ck; [intros Hs; apply Hsm in Hs; apply prod_small; lia|]. intros Hp.
  assert (Hb := nlm_bounds ia id ie Hia Hid (proj1 Hie) ltac:(unfold int_max; lia) (proj2 Hp)).
  set (nlm := nlm_start (ia * id) ie) in *. clearbody nlm.
  assert (Hb' := Hb).
  pose proof (fact_table_length libm_log ntot ltac:(lia)) as HL.
  apply wp_bind_ck; [unfold int_min, int_max; lia|]. intros _.
  apply wp_bind_ck; [unfold int_min, int_max; lia|]. intros _.
  apply wp_bind_ck; [unfold int_min, int_max; lia|]. intros _.
  apply wp_bind_ck; [unfold int_min, int_max; lia|]. intros _.
  apply wp_bind_ck; [unfold int_min, int_max; lia|]. intros _.
  apply wp_bind_ck; [unfold int_min, int_max; lia|]. intros _.
  apply wp_bind_ck; [unfold int_min, int_max; lia|]. intros _.
  do 9 (apply (wp_bind_rd _ _ _ _ fzero); [lia|]).
  cbv zeta.
  match goal with |- context [libm_exp ?z] => set (arg := z) end.
  assert (Harg : libm_ok libm_exp libm_log -> fnn (libm_exp arg)).
  { intros [He Hl]. apply fle0_fnn. apply He. unfold arg.
    assert (HF : forall k, 0 <= k <= ntot -> fbd (nth (Z.to_nat k) (fact_table libm_log ntot) fzero) (2 ^ 37)).
    { intros k Hk. apply fact_bd; [exact Hl|unfold int_max; lia|exact Hk]. }
    match goal with |- ffin ?z = true => assert (HH : fbd z (2^37+2^37+2^37+2^37+2^37+2^37+2^37+2^37+2^37)) end.
    { do 5 (apply fbd_minus; [|apply HF; lia|lia]). do 3 (apply fbd_plus; [|apply HF; lia|lia]). apply HF; lia. }
    exact (proj1 HH). }
  destruct (fle r _); [exact Hb|].
  apply (inc_loop_wp small term (libm_ok libm_exp libm_log) _ _ ia id ie); try assumption; try (unfold int_max; lia).
  all: try (unfold lo, hi; lia).
  - intros Hs. apply Hsm in Hs. lia.
  - intros C. specialize (Harg C). auto.
Qed.


Lemma variate_of_seed : forall seed, int32 seed ->
  exists u s', r8_uniform_01 seed = COk (u, s') /\ 0 <= s' < lcg_p /\ int32 s' /\ ffin u = true /\ (0 <= f2R u < 1)%R.
Proof.
  intros seed H. rewrite r8_ok by exact H. eexists _, _. split; [reflexivity|].
  pose proof (lcg_range (16807 * seed)) as Hr.
  split; [exact Hr|]. split; [unfold int32, int_min, int_max, lcg_p in *; lia|].
  pose proof (variate_spec _ Hr) as V. cbv zeta in V. tauto.
Qed.

Lemma scaled_le : forall s u : f64, fnn s -> ffin s = true -> ffin u = true -> (0 <= f2R u < 1)%R -> fle (fmult s u) s = true.
Proof.
  intros s u Hn Fs Fu Hu. apply (fnn_fin s Fs) in Hn.
  assert (Hle : (f2R s * f2R u <= f2R s)%R) by nra.
  assert (H0 : (0 <= f2R s * f2R u)%R) by nra.
  assert (HR : (rnd (f2R s * f2R u) <= f2R s)%R) by (rewrite <- (rnd_id (f2R s)) at 2 by apply fmt_B2R; apply rnd_le; exact Hle).
  generalize (Bmult_correct 53 1024 _ _ mode_NE s u). fold (fmult s u).
  rewrite Rlt_bool_true.
  - intros (H1 & H2 & _). apply fle_spec; [unfold ffin in *; rewrite H2, Fs, Fu; reflexivity|exact Fs|].
    unfold f2R at 1. rewrite H1. exact HR.
  - change (Rabs (rnd (f2R s * f2R u)) < bpow radix2 1024)%R.
    rewrite Rabs_pos_eq by (rewrite <- rnd_0; apply rnd_le; exact H0).
    apply Rle_lt_trans with (1 := HR).
    apply Rle_lt_trans with (1 := Rle_abs _). apply abs_B2R_lt_emax.
Qed.

Lemma not_le_finite : forall r s : f64, ffin r = true -> fnn s -> fle r s = false -> ffin s = true.
Proof.
  intros r s Fr Hs H. destruct s as [b|b| |b m e He]; try reflexivity; try contradiction.
  simpl in Hs. subst b. destruct r as [b|b| |b m e He]; try discriminate; destruct b; discriminate.
Qed.

Lemma attempts_wp : forall fuel ntot ia ib ic id ie ii r seed,
  geom ntot ia ib ic id ie ii -> (small -> ntot <= 46340) -> int32 seed ->
  (term -> libm_ok libm_exp libm_log /\
     (((2 <= fuel)%nat /\ ffin r = true) \/
      ((1 <= fuel)%nat /\ forall s, once (fact_table libm_log ntot) ia ib ic id ie ii r <> COk (Exhausted s)))) ->
  wp small term (fun a => lo ia id ie <= fst a <= hi ia id /\ int32 (snd a))
    (attempts libm_exp fuel (fact_table libm_log ntot) ia ib ic id ie ii r seed).
Proof.
  induction fuel as [|fuel IH]; intros ntot ia ib ic id ie ii r seed Hg Hsm Hseed Ht.
  { simpl. intros T. destruct (Ht T) as [_ [[H _]|[H _]]]; lia. }
  rewrite attempts_S.
  pose proof (once_wp ntot ia ib ic id ie ii r Hg Hsm) as W.
  destruct (once (fact_table libm_log ntot) ia ib ic id ie ii r) as [d|e] eqn:E.
  2:{ destruct e; simpl in *; auto. }
  cbn [wp cbind] in *.
  destruct d as [n|s]; [simpl; split; [exact W|exact Hseed]|].
  destruct (variate_of_seed seed Hseed) as (u & s' & -> & _ & Hs' & Fu & Hu). cbn [cbind fst snd].
  apply IH; try assumption.
  intros T. destruct (Ht T) as [C [[Hf Fr]|[_ Hne]]].
  - split; [exact C|]. right. split; [lia|]. intros s2 E2.
    pose proof (once_indep _ _ _ _ _ _ _ _ _ _ _ E E2) as <-.
    pose proof (once_tested _ _ _ _ _ _ _ _ _ E) as T1.
    pose proof (once_tested _ _ _ _ _ _ _ _ _ E2) as T2.
    rewrite scaled_le in T2; [discriminate| | | |]; auto.
    eapply not_le_finite; [exact Fr| |exact T1]. auto.
  - exfalso. eapply Hne. reflexivity.
Qed.
End Attempts.

(* ------------------------------------------------------------------ *)
(** ** Sums *)

Fixpoint ssum (f : nat -> Z) (a n : nat) : Z :=
  match n with O => 0 | S n' => f a + ssum f (S a) n' end.

Lemma ssum_ext : forall n f g a, (forall k, (a <= k < a + n)%nat -> f k = g k) -> ssum f a n = ssum g a n.
Proof.
  induction n as [|n IH]; intros f g a H; simpl; [reflexivity|].
  rewrite (H a) by lia. f_equal. apply IH. intros k Hk. apply H. lia.
Qed.

Lemma ssum_nonneg : forall n f a, (forall k, (a <= k < a + n)%nat -> 0 <= f k) -> 0 <= ssum f a n.
Proof.
  induction n as [|n IH]; intros f a H; simpl; [lia|].
  pose proof (H a ltac:(lia)). pose proof (IH f (S a) ltac:(intros k Hk; apply H; lia)). lia.
Qed.

Lemma ssum_zero_inv : forall n f a, (forall k, (a <= k < a + n)%nat -> 0 <= f k) -> ssum f a n = 0 ->
  forall k, (a <= k < a + n)%nat -> f k = 0.
Proof.
  induction n as [|n IH]; intros f a H Hz k Hk; simpl in *; [lia|].
  pose proof (H a ltac:(lia)). pose proof (ssum_nonneg n f (S a) ltac:(intros k' Hk'; apply H; lia)).
  destruct (Nat.eq_dec k a) as [->|Hne]; [lia|].
  apply (IH f (S a)); [intros k' Hk'; apply H; lia|lia|lia].
Qed.

Lemma ssum_le : forall n f g a, (forall k, (a <= k < a + n)%nat -> f k <= g k) -> ssum f a n <= ssum g a n.
Proof.
  induction n as [|n IH]; intros f g a H; simpl; [lia|].
  pose proof (H a ltac:(lia)). pose proof (IH f g (S a) ltac:(intros k Hk; apply H; lia)). lia.
Qed.

Lemma ssum_sub : forall n f g a, ssum (fun k => f k - g k) a n = ssum f a n - ssum g a n.
Proof. induction n as [|n IH]; intros f g a; simpl; [lia|]. rewrite IH. lia. Qed.

Lemma ssum_app : forall n m f a, ssum f a (n + m) = ssum f a n + ssum f (a + n) m.
Proof.
  induction n as [|n IH]; intros m f a; simpl; [rewrite Nat.add_0_r; reflexivity|].
  rewrite IH. replace (S a + n)%nat with (a + S n)%nat by lia. lia.
Qed.

Lemma ssum_last : forall n f a, ssum f a (S n) = ssum f a n + f (a + n)%nat.
Proof. intros n f a. replace (S n) with (n + 1)%nat by lia. rewrite ssum_app. simpl. lia. Qed.

Lemma ssum_const : forall n c a, ssum (fun _ => c) a n = c * Z.of_nat n.
Proof. induction n as [|n IH]; intros c a; cbn [ssum]; [lia|]. rewrite IH. lia. Qed.

(* ------------------------------------------------------------------ *)
(** ** Matrix indices *)

Definition cell (nrow : nat) (mat : list Z) (l m : nat) : Z := nth (l + m * nrow) mat 0.

Lemma idx_inj : forall nrow l m l' m', (l < nrow)%nat -> (l' < nrow)%nat ->
  (l + m * nrow = l' + m' * nrow)%nat -> l = l' /\ m = m'.
Proof.
  intros nrow l m l' m' Hl Hl' H.
  assert (l = l').
  { rewrite <- (Nat.mod_small l nrow Hl), <- (Nat.mod_small l' nrow Hl').
    rewrite <- (Nat.mod_add l m nrow), <- (Nat.mod_add l' m' nrow) by lia. congruence. }
  split; [assumption|]. subst l'.
  apply Nat.mul_cancel_r with nrow; lia.
Qed.

Lemma idx_lt : forall nrow ncol l m, (l < nrow)%nat -> (m < ncol)%nat -> (l + m * nrow < nrow * ncol)%nat.
Proof. intros nrow ncol l m Hl Hm. nia. Qed.

Lemma cell_upd : forall nrow ncol mat l m l' m' v, length mat = (nrow * ncol)%nat ->
  (l < nrow)%nat -> (m < ncol)%nat -> (l' < nrow)%nat ->
  cell nrow (upd mat (l + m * nrow) v) l' m' = if (Nat.eqb l' l && Nat.eqb m' m)%bool then v else cell nrow mat l' m'.
Proof.
  intros nrow ncol mat l m l' m' v HL Hl Hm Hl'. unfold cell.
  rewrite nth_upd by (rewrite HL; apply idx_lt; assumption).
  destruct (Nat.eqb_spec (l' + m' * nrow) (l + m * nrow)) as [E|E].
  - apply idx_inj in E; [|assumption|assumption]. destruct E as [-> ->]. rewrite !Nat.eqb_refl. reflexivity.
  - destruct (Nat.eqb_spec l' l) as [->|]; simpl; [|reflexivity].
    destruct (Nat.eqb_spec m' m) as [->|]; simpl; [|reflexivity]. congruence.
Qed.

Lemma ck_cases : forall z, (int_min <= z <= int_max /\ ck z = COk z) \/ (~ int_min <= z <= int_max /\ ck z = CErr IntOverflow).
Proof.
  intros z. unfold ck. destruct ((int_min <=? z) && (z <=? int_max)) eqn:E.
  - left. apply andb_true_iff in E. split; [lia|reflexivity].
  - right. apply andb_false_iff in E. split; [lia|reflexivity].
Qed.

Section Fill.
Variables libm_exp libm_log : f64 -> f64.
Variables small term : Prop.

Lemma wp_bind_midx : forall B (P : B -> Prop) nrow ncol l m f,
  (l < nrow)%nat -> (m < ncol)%nat -> (small -> Z.of_nat (nrow * ncol) <= int_max) ->
  wp small term P (f (Z.of_nat (l + m * nrow))) -> wp small term P (cbind (midx nrow l m) f).
Proof.
  intros B P nrow ncol l m f Hl Hm Hs H.
  pose proof (idx_lt nrow ncol l m Hl Hm) as Hi.
  unfold midx.
  destruct (ck_cases (Z.of_nat m * Z.of_nat nrow)) as [[E1 ->]|[E1 ->]]; cbn [cbind].
  - replace (Z.of_nat l + Z.of_nat m * Z.of_nat nrow) with (Z.of_nat (l + m * nrow)) by lia.
    destruct (ck_cases (Z.of_nat (l + m * nrow))) as [[E2 ->]|[E2 ->]]; cbn [cbind]; [exact H|].
    simpl. intros S. apply Hs in S. unfold int_min, int_max in *. lia.
  - simpl. intros S. apply Hs in S. unfold int_min, int_max in *. lia.
Qed.

Lemma zero_rest_wp : forall n nrow ncol l j mat,
  (j + n = ncol)%nat -> (l < nrow)%nat -> length mat = (nrow * ncol)%nat ->
  (small -> Z.of_nat (nrow * ncol) <= int_max) ->
  wp small term (fun mt => length mt = (nrow * ncol)%nat /\
      (forall k, (j <= k < ncol)%nat -> cell nrow mt l k = 0) /\
      (forall l' k, (l' < nrow)%nat -> l' <> l \/ (k < j)%nat -> cell nrow mt l' k = cell nrow mat l' k))
    (zero_rest n nrow l j mat).
Proof.
  induction n as [|n IH]; intros nrow ncol l j mat Hj Hl HL Hs.
  { simpl. repeat split; [exact HL|intros; lia]. }
  cbn [zero_rest].
  apply wp_bind_midx with (ncol := ncol); [assumption|lia|assumption|].
  apply wp_bind_wr; [pose proof (idx_lt nrow ncol l j Hl ltac:(lia)); lia|].
  rewrite Nat2Z.id.
  eapply wp_mono; [apply (IH nrow ncol l (S j)); [lia|assumption|rewrite upd_length; assumption|assumption]|].
  intros mt (H1 & H2 & H3). split; [exact H1|]. split.
  - intros k Hk. destruct (Nat.eq_dec k j) as [->|Hne].
    + rewrite H3 by (auto; right; lia). rewrite (cell_upd nrow ncol) by (auto; lia). rewrite !Nat.eqb_refl. reflexivity.
    + apply H2. lia.
  - intros l' k Hl' Hk. rewrite H3 by (first [assumption | destruct Hk; [left; assumption|right; lia]]).
    rewrite (cell_upd nrow ncol) by (auto; lia).
    destruct (Nat.eqb_spec l' l) as [->|]; simpl; [|reflexivity].
    destruct (Nat.eqb_spec k j) as [->|]; simpl; [|reflexivity]. destruct Hk; [congruence|lia].
Qed.

Definition J (jw : list Z) (k : nat) : Z := nth k jw 0.

Lemma J_upd : forall jw i k v, (i < length jw)%nat -> J (upd jw i v) k = if Nat.eqb k i then v else J jw k.
Proof. intros. unfold J. apply nth_upd. assumption. Qed.

Variable ntot : Z.
Variables nrow ncol : nat.
Hypothesis Hntot : ntot < int_max.
Hypothesis Hsmall : small -> ntot <= 46340.
Hypothesis Hsize : small -> Z.of_nat (nrow * ncol) <= int_max.
Hypothesis Hncol : (2 <= ncol)%nat.

Definition col_pre (n l m : nat) (K : Z) (st : cstate) : Prop :=
  (m + n = ncol - 1)%nat /\ (l < nrow)%nat /\
  length (c_jwork st) = (ncol - 1)%nat /\ length (c_mat st) = (nrow * ncol)%nat /\
  (forall k, (k < ncol - 1)%nat -> 0 <= J (c_jwork st) k) /\ 0 <= K /\
  c_ic st = ssum (J (c_jwork st)) m n + K /\ 0 <= c_ia st <= c_ic st /\ c_ic st <= ntot /\ int32 (c_seed st).

Definition col_post (n l m : nat) (K : Z) (st st' : cstate) : Prop :=
  length (c_jwork st') = (ncol - 1)%nat /\ length (c_mat st') = (nrow * ncol)%nat /\ int32 (c_seed st') /\
  (forall k, (k < m)%nat -> J (c_jwork st') k = J (c_jwork st) k /\ cell nrow (c_mat st') l k = cell nrow (c_mat st) l k) /\
  (forall k, (m <= k < ncol - 1)%nat -> 0 <= J (c_jwork st') k /\ 0 <= cell nrow (c_mat st') l k /\
       cell nrow (c_mat st') l k = J (c_jwork st) k - J (c_jwork st') k) /\
  (forall l' k, (l' < nrow)%nat -> l' <> l -> cell nrow (c_mat st') l' k = cell nrow (c_mat st) l' k) /\
  0 <= c_ia st' <= K /\
  c_ia st' = c_ia st - ssum (fun k => J (c_jwork st) k - J (c_jwork st') k) m n /\
  ((1 <= n)%nat -> c_ib st' = J (c_jwork st') (ncol - 2) + K - c_ia st') /\
  (n = 0%nat -> c_ib st' = c_ib st).

Lemma col_loop_wp : forall n fuel l m K st,
  (term -> libm_ok libm_exp libm_log /\ (2 <= fuel)%nat) ->
  col_pre n l m K st ->
  wp small term (col_post n l m K st)
     (col_loop libm_exp n fuel (fact_table libm_log ntot) nrow ncol l m st).
Proof.
  induction n as [|n IH]; intros fuel l m K st Ht Hpre.
  { destruct Hpre as (Hm & Hl & HJ & HM & Hnn & HK & Hic & Hia & Hnt & Hseed). simpl in *.
    unfold col_post. cbn [ssum].
    split; [exact HJ|]. split; [exact HM|]. split; [exact Hseed|]. split; [auto|]. split; [intros; lia|].
    split; [auto|]. split; [lia|]. split; [lia|]. split; [intros; lia|reflexivity]. }
  destruct Hpre as (Hm & Hl & HJ & HM & Hnn & HK & Hic & Hia & Hnt & Hseed).
  cbn [col_loop]. unfold int_max in Hntot.
  apply (wp_bind_rd _ _ _ _ 0); [lia|]. rewrite Nat2Z.id. fold (J (c_jwork st) m).
  pose proof (Hnn m ltac:(lia)) as Hid0.
  cbn [ssum] in Hic.
  assert (Hrest : 0 <= ssum (J (c_jwork st)) (S m) n) by (apply ssum_nonneg; intros; apply Hnn; lia).
  apply wp_bind_ck; [unfold int_min, int_max; lia|]. intros _.
  apply wp_bind_ck; [unfold int_min, int_max; lia|]. intros _.
  apply wp_bind_ck; [unfold int_min, int_max; lia|]. intros _.
  destruct (Z.eqb_spec (c_ic st) 0) as [Hz|Hz].
  - (* ie = 0: everything left is zero *)
    assert (HJz : forall k, (m <= k < ncol - 1)%nat -> J (c_jwork st) k = 0).
    { intros k Hk. apply (ssum_zero_inv (S n) (J (c_jwork st)) m); [intros; apply Hnn; lia|cbn [ssum]; lia|lia]. }
    eapply wp_bind; [apply (zero_rest_wp (ncol - m) nrow ncol l m); [lia|assumption|assumption|assumption]|].
    intros mt (H1 & H2 & H3). unfold col_post. cbn [c_jwork c_mat c_seed c_ia c_ib wp].
    split; [exact HJ|]. split; [exact H1|]. split; [exact Hseed|]. split.
    { intros k Hk. split; [reflexivity|]. apply H3; [assumption|right; assumption]. }
    split.
    { intros k Hk. rewrite (H2 k) by lia. rewrite (HJz k) by lia. lia. }
    split; [intros l' k Hl' Hne; apply H3; auto|].
    split; [lia|]. split.
    { rewrite ssum_sub. lia. }
    split; [|discriminate]. intros _. rewrite (HJz (ncol - 2)%nat) by lia. lia.
  - destruct (variate_of_seed (c_seed st) Hseed) as (u & s' & -> & _ & Hs' & Fu & Hu). cbn [cbind fst snd].
    set (id := J (c_jwork st) m) in *.
    eapply wp_bind; [apply (attempts_wp libm_exp libm_log small term fuel ntot)|].
    + unfold geom. unfold int_max. repeat split; try lia.
    + assumption.
    + exact Hs'.
    + intros T. destruct (Ht T) as [C F]. split; [exact C|]. left. split; [exact F|exact Fu].
    + intros [v sd] [Hv Hsd]. cbn [fst snd] in *. unfold lo, hi in Hv.
      apply wp_bind_midx with (ncol := ncol); [assumption|lia|assumption|].
      apply wp_bind_wr; [pose proof (idx_lt nrow ncol l m Hl ltac:(lia)); lia|].
      rewrite Nat2Z.id.
      apply wp_bind_ck; [unfold int_min, int_max; lia|]. intros _.
      apply wp_bind_ck; [unfold int_min, int_max; lia|]. intros _.
      apply wp_bind_wr; [lia|]. rewrite Nat2Z.id.
      set (jw := upd (c_jwork st) m (id - v)). set (mt := upd (c_mat st) (l + m * nrow) v).
      assert (HJw : forall k, J jw k = if Nat.eqb k m then id - v else J (c_jwork st) k) by (intros k; apply J_upd; lia).
      assert (Hcell : forall l' k, (l' < nrow)%nat -> cell nrow mt l' k = if (Nat.eqb l' l && Nat.eqb k m)%bool then v else cell nrow (c_mat st) l' k)
        by (intros l' k Hl'; apply (cell_upd nrow ncol); auto; lia).
      assert (Hsum : ssum (J jw) (S m) n = ssum (J (c_jwork st)) (S m) n).
      { apply ssum_ext. intros k Hk. rewrite HJw. destruct (Nat.eqb_spec k m); [lia|reflexivity]. }
      eapply wp_mono.
      * apply (IH fuel l (S m) K); [exact Ht|]. unfold col_pre. cbn [c_jwork c_mat c_seed c_ia c_ib c_ic].
        rewrite Hsum. unfold jw at 1, mt at 1. rewrite !upd_length.
        repeat split; try assumption; try lia; try (apply Hsd).
        intros k Hk. rewrite HJw. destruct (Nat.eqb k m); [lia|apply Hnn; assumption].
      * intros st' (P1 & P2 & P3 & P4 & P5 & P6 & P7 & P8 & P9 & P10).
        cbn [c_jwork c_mat c_seed c_ia c_ib c_ic] in *.
        assert (HJm : J (c_jwork st') m = id - v) by (destruct (P4 m ltac:(lia)) as [-> _]; rewrite HJw, Nat.eqb_refl; reflexivity).
        unfold col_post. split; [exact P1|]. split; [exact P2|]. split; [exact P3|]. split.
        { intros k Hk. destruct (P4 k ltac:(lia)) as [-> ->]. rewrite HJw, Hcell by assumption.
          destruct (Nat.eqb_spec k m); [lia|]. rewrite andb_false_r. auto. }
        split.
        { intros k Hk. destruct (Nat.eq_dec k m) as [->|Hne].
          - destruct (P4 m ltac:(lia)) as [_ ->]. rewrite HJm, Hcell, !Nat.eqb_refl by assumption. simpl. fold id. lia.
          - destruct (P5 k ltac:(lia)) as (Q1 & Q2 & Q3). rewrite HJw in Q3.
            destruct (Nat.eqb_spec k m); [lia|]. auto. }
        split.
        { intros l' k Hl' Hne. rewrite P6 by assumption. rewrite Hcell by assumption.
          destruct (Nat.eqb_spec l' l); [congruence|reflexivity]. }
        split; [exact P7|].
        assert (HA : c_ia st' = c_ia st - ssum (fun k => J (c_jwork st) k - J (c_jwork st') k) m (S n)).
        { cbn [ssum]. rewrite HJm. rewrite P8. fold id.
          replace (ssum (fun k => J jw k - J (c_jwork st') k) (S m) n) with (ssum (fun k => J (c_jwork st) k - J (c_jwork st') k) (S m) n); [lia|].
          apply ssum_ext. intros k Hk. rewrite HJw. destruct (Nat.eqb_spec k m); [lia|reflexivity]. }
        split; [exact HA|].
        split; [|discriminate].
        intros _. destruct n as [|n'].
        { cbn [ssum] in HA, Hic. replace (ncol - 2)%nat with m by lia.
          rewrite P10 by reflexivity. rewrite HJm in *. fold id in HA. lia. }
        { apply P9. lia. }
Qed.

(** rows *)
Variables rt ct : list Z.
Hypothesis Hrt : length rt = nrow.
Hypothesis Hrpos : forall k, (k < nrow)%nat -> 0 < nth k rt 0.
Hypothesis Hnrow : (2 <= nrow)%nat.

Definition row_inv (l : nat) (K : Z) (st : rstate) : Prop :=
  length (r_jwork st) = (ncol - 1)%nat /\ length (r_mat st) = (nrow * ncol)%nat /\
  (forall k, (k < ncol - 1)%nat -> 0 <= J (r_jwork st) k) /\ 0 <= K /\ int32 (r_seed st) /\
  r_jc st = ssum (J (r_jwork st)) 0 (ncol - 1) + K /\
  r_jc st = ssum (fun i => nth i rt 0) l (nrow - l) /\ r_jc st <= ntot /\
  (forall i k, (i < l)%nat -> (k < ncol)%nat -> 0 <= cell nrow (r_mat st) i k) /\
  (forall i, (i < l)%nat -> ssum (cell nrow (r_mat st) i) 0 ncol = nth i rt 0) /\
  (forall k, (k < ncol - 1)%nat -> ssum (fun i => cell nrow (r_mat st) i k) 0 l + J (r_jwork st) k = nth k ct 0) /\
  ssum (fun i => cell nrow (r_mat st) i (ncol - 1)) 0 l + K = nth (ncol - 1) ct 0 /\
  ((1 <= l)%nat -> r_ib st = J (r_jwork st) (ncol - 2) + K).

Lemma row_loop_wp : forall n fuel l K st,
  (term -> libm_ok libm_exp libm_log /\ (2 <= fuel)%nat) ->
  (l + n = nrow - 1)%nat -> row_inv l K st ->
  wp small term (fun st' => exists K', row_inv (nrow - 1) K' st')
     (row_loop libm_exp n fuel (fact_table libm_log ntot) rt nrow ncol l st).
Proof.
  induction n as [|n IH]; intros fuel l K st Ht Hl Hinv.
  { simpl. exists K. replace (nrow - 1)%nat with l by lia. exact Hinv. }
  destruct Hinv as (I1 & I2 & I3 & I4 & I5 & I6 & I7 & I8 & I9 & I10 & I11 & I12 & I13).
  cbn [row_loop]. unfold int_max in Hntot.
  apply (wp_bind_rd _ _ _ _ 0); [lia|]. rewrite Nat2Z.id.
  set (t := nth l rt 0).
  assert (Ht0 : 0 < t) by (apply Hrpos; lia).
  replace (nrow - l)%nat with (S (nrow - S l)) in I7 by lia. cbn [ssum] in I7. fold t in I7.
  assert (Hrest : 0 <= ssum (fun i => nth i rt 0) (S l) (nrow - S l)).
  { apply ssum_nonneg. intros k Hk. pose proof (Hrpos k ltac:(lia)). lia. }
  apply wp_bind_ck; [unfold int_min, int_max; lia|]. intros _.
  eapply wp_bind; [apply (col_loop_wp (ncol - 1) fuel l 0 K); [exact Ht|]|].
  { unfold col_pre. cbn [c_jwork c_mat c_seed c_ia c_ib c_ic].
    split; [lia|]. split; [lia|]. split; [exact I1|]. split; [exact I2|]. split; [exact I3|].
    split; [exact I4|]. split; [exact I6|]. split; [lia|]. split; [lia|exact I5]. }
  intros c (P1 & P2 & P3 & P4 & P5 & P6 & P7 & P8 & P9 & P10).
  cbn [c_jwork c_mat c_seed c_ia c_ib c_ic] in *.
  apply wp_bind_midx with (ncol := ncol); [lia|lia|assumption|].
  apply wp_bind_wr; [pose proof (idx_lt nrow ncol l (ncol - 1) ltac:(lia) ltac:(lia)); lia|].
  rewrite Nat2Z.id.
  set (mt := upd (c_mat c) (l + (ncol - 1) * nrow) (c_ia c)).
  assert (Hcell : forall l' k, (l' < nrow)%nat -> cell nrow mt l' k = if (Nat.eqb l' l && Nat.eqb k (ncol - 1))%bool then c_ia c else cell nrow (c_mat c) l' k)
        by (intros l' k Hl'; apply (cell_upd nrow ncol); auto; lia).
  assert (Hold : forall l' k, (l' < l)%nat -> cell nrow mt l' k = cell nrow (r_mat st) l' k).
  { intros l' k Hl'. rewrite Hcell by lia. destruct (Nat.eqb_spec l' l); [lia|]. simpl. apply P6; lia. }
  assert (Hnew : forall k, (k < ncol - 1)%nat -> cell nrow mt l k = J (r_jwork st) k - J (c_jwork c) k /\ 0 <= cell nrow mt l k).
  { intros k Hk. rewrite Hcell by lia. rewrite Nat.eqb_refl. destruct (Nat.eqb_spec k (ncol - 1)); [lia|]. simpl.
    destruct (P5 k ltac:(lia)) as (Q1 & Q2 & Q3). auto. }
  assert (Hlast : cell nrow mt l (ncol - 1) = c_ia c).
  { rewrite Hcell by lia. rewrite !Nat.eqb_refl. reflexivity. }
  assert (HJJ : ssum (J (r_jwork st)) 0 (ncol - 1) - ssum (J (c_jwork c)) 0 (ncol - 1) = t - c_ia c).
  { rewrite <- ssum_sub. lia. }
  apply (IH fuel (S l) (K - c_ia c)); [exact Ht|lia|].
  unfold row_inv. cbn [r_jc r_ib r_jwork r_seed r_mat].
  split; [exact P1|]. split; [unfold mt; rewrite upd_length; exact P2|].
  split; [intros k Hk; apply (P5 k); lia|]. split; [lia|]. split; [exact P3|].
  split; [lia|]. split; [lia|]. split; [lia|]. split.
  { intros i k Hi Hk. destruct (Nat.eq_dec i l) as [->|Hne].
    - destruct (Nat.eq_dec k (ncol - 1)) as [->|Hne]; [rewrite Hlast; lia|apply Hnew; lia].
    - rewrite Hold by lia. apply I9; lia. }
  split.
  { intros i Hi. destruct (Nat.eq_dec i l) as [->|Hne].
    - fold t. replace ncol with (S (ncol - 1)) at 1 by lia. rewrite ssum_last. cbn [Nat.add]. rewrite Hlast.
      rewrite (ssum_ext _ _ (fun k => J (r_jwork st) k - J (c_jwork c) k)) by (intros k Hk; apply Hnew; lia). lia.
    - rewrite <- I10 by lia. apply ssum_ext. intros k Hk. apply Hold. lia. }
  split.
  { intros k Hk. rewrite ssum_last. cbn [Nat.add]. destruct (Hnew k Hk) as [-> _].
    rewrite <- (I11 k Hk).
    rewrite (ssum_ext l _ (fun i => cell nrow (r_mat st) i k)) by (intros i Hi; apply Hold; lia). lia. }
  split.
  { rewrite ssum_last. cbn [Nat.add]. rewrite Hlast. rewrite <- I12.
    rewrite (ssum_ext l _ (fun i => cell nrow (r_mat st) i (ncol - 1))) by (intros i Hi; apply Hold; lia). lia. }
  intros _. rewrite P9 by lia. lia.
Qed.

Lemma last_row_wp : forall n j jw mat,
  (j + n = ncol - 1)%nat -> length jw = (ncol - 1)%nat -> length mat = (nrow * ncol)%nat ->
  wp small term (fun mt => length mt = (nrow * ncol)%nat /\
      (forall k, (j <= k < ncol - 1)%nat -> cell nrow mt (nrow - 1) k = J jw k) /\
      (forall l' k, (l' < nrow)%nat -> l' <> (nrow - 1)%nat \/ (k < j)%nat -> cell nrow mt l' k = cell nrow mat l' k))
    (last_row n nrow j jw mat).
Proof.
  induction n as [|n IH]; intros j jw mat Hj HJ HL.
  { simpl. repeat split; [exact HL|intros; lia]. }
  cbn [last_row].
  apply wp_bind_midx with (ncol := ncol); [lia|lia|assumption|].
  apply (wp_bind_rd _ _ _ _ 0); [lia|]. rewrite Nat2Z.id. fold (J jw j).
  apply wp_bind_wr; [pose proof (idx_lt nrow ncol (nrow - 1) j ltac:(lia) ltac:(lia)); lia|].
  rewrite Nat2Z.id.
  eapply wp_mono; [apply (IH (S j)); [lia|assumption|rewrite upd_length; assumption]|].
  intros mt (H1 & H2 & H3). split; [exact H1|]. split.
  - intros k Hk. destruct (Nat.eq_dec k j) as [->|Hne].
    + rewrite H3 by (first [lia | right; lia]). rewrite (cell_upd nrow ncol) by (auto; lia). rewrite !Nat.eqb_refl. reflexivity.
    + apply H2. lia.
  - intros l' k Hl' Hk. rewrite H3 by (first [assumption | destruct Hk; [left; assumption|right; lia]]).
    rewrite (cell_upd nrow ncol) by (auto; lia).
    destruct (Nat.eqb_spec l' (nrow - 1)) as [->|]; simpl; [|reflexivity].
    destruct (Nat.eqb_spec k j) as [->|]; simpl; [|reflexivity]. destruct Hk; [congruence|lia].
Qed.
End Fill.

(* ------------------------------------------------------------------ *)
(** ** Main theorem *)


Lemma zsum_ssum : forall l pre, zsum l = ssum (fun k => nth k (pre ++ l) 0) (length pre) (length l).
Proof.
  induction l as [|a l IH]; intros pre; [reflexivity|].
  cbn [zsum fold_right length ssum]. rewrite app_nth2 by lia. rewrite Nat.sub_diag. cbn [nth].
  f_equal. fold (zsum l). rewrite (IH (pre ++ [a])). rewrite <- app_assoc. cbn [app].
  rewrite app_length. cbn [length]. replace (length pre + 1)%nat with (S (length pre)) by lia. reflexivity.
Qed.

Lemma zsum_ssum0 : forall l, zsum l = ssum (fun k => nth k l 0) 0 (length l).
Proof. intros l. apply (zsum_ssum l []). Qed.

Lemma i4vec_sum_spec : forall l acc, int32 acc -> 0 <= acc -> (forall x, In x l -> 0 < x) ->
  i4vec_sum_from acc l = if acc + zsum l <=? int_max then COk (acc + zsum l) else CErr IntOverflow.
Proof.
  induction l as [|a l IH]; intros acc Hi H0 Hp.
  { simpl. rewrite Z.add_0_r. destruct Hi as [_ Hi]. destruct (Z.leb_spec acc int_max); [reflexivity|lia]. }
  assert (Ha : 0 < a) by (apply Hp; left; reflexivity).
  assert (Hz : 0 <= zsum l).
  { rewrite zsum_ssum0. apply ssum_nonneg. intros k Hk. assert (0 < nth k l 0); [|lia]. apply Hp. right. apply nth_In. lia. }
  cbn [i4vec_sum_from zsum fold_right]. fold (zsum l).
  destruct (ck_cases (acc + a)) as [[E ->]|[E ->]]; cbn [cbind].
  - rewrite IH; [replace (acc + a + zsum l) with (acc + (a + zsum l)) by lia; reflexivity|exact E|lia|].
    intros x Hx. apply Hp. right. exact Hx.
  - destruct (Z.leb_spec (acc + (a + zsum l)) int_max); [|reflexivity].
    exfalso. apply E. unfold int_min in *. lia.
Qed.

Lemma zsum_ge_length : forall l, (forall x, In x l -> 0 < x) -> Z.of_nat (length l) <= zsum l.
Proof.
  induction l as [|a l IH]; intros H; [simpl; lia|].
  cbn [zsum fold_right length]. fold (zsum l). pose proof (H a (or_introl eq_refl)).
  pose proof (IH (fun x Hx => H x (or_intror Hx))). lia.
Qed.

Lemma existsb_pos : forall l, (forall x, In x l -> 0 < x) -> existsb (fun t => t <=? 0) l = false.
Proof.
  intros l H. destruct (existsb _ l) eqn:E; [|reflexivity].
  apply existsb_exists in E. destruct E as (x & Hx & Hle). apply H in Hx. lia.
Qed.



Lemma zsum_map_seq : forall f n a, zsum (map f (seq a n)) = ssum f a n.
Proof. intros f n. induction n as [|n IH]; intros a; [reflexivity|]. cbn [seq map zsum fold_right ssum]. fold (zsum (map f (seq (S a) n))). rewrite IH. reflexivity. Qed.

Theorem rcont2_wp : forall libm_exp libm_log fuel ib0 nrow ncol rt ct seed mat,
  valid_totals nrow ncol rt ct -> length mat = (nrow * ncol)%nat -> int32 seed ->
  wp (zsum rt <= 46340) (libm_ok libm_exp libm_log /\ (2 <= fuel)%nat)
     (fun res => is_table nrow ncol rt ct (fst res) /\ int32 (snd res))
     (rcont2 libm_exp libm_log fuel ib0 nrow ncol rt ct seed mat).
Proof.
  intros libm_exp libm_log fuel ib0 nrow ncol rt ct seed mat (Hnr & Hnc & Hlr & Hlc & Hpr & Hpc & Heq) HM Hseed.
  unfold rcont2.
  destruct (Nat.leb_spec nrow 1); [lia|]. destruct (Nat.leb_spec ncol 1); [lia|].
  rewrite !existsb_pos by assumption.
  set (small := zsum rt <= 46340). set (term := libm_ok libm_exp libm_log /\ (2 <= fuel)%nat).
  unfold i4vec_sum. rewrite !i4vec_sum_spec by (try assumption; unfold int32, int_min, int_max; lia).
  cbn [Z.add]. rewrite <- Heq.
  destruct (Z.leb_spec (zsum rt) int_max) as [Hmax|Hmax]; cbn [cbind].
  2:{ simpl. unfold small. unfold int_max in Hmax. lia. }
  rewrite Z.eqb_refl. cbn [negb].
  assert (Hz0 : 0 < zsum rt) by (pose proof (zsum_ge_length rt Hpr); lia).
  apply wp_bind_ck; [unfold small, int_min, int_max; lia|]. intros Hn1.
  assert (Hntot : zsum rt < int_max) by lia.
  assert (Hsize : small -> Z.of_nat (nrow * ncol) <= int_max).
  { unfold small. intros S. pose proof (zsum_ge_length rt Hpr) as A. pose proof (zsum_ge_length ct Hpc) as B.
    rewrite Hlr in A. rewrite Hlc in B. rewrite <- Heq in B. rewrite Nat2Z.inj_mul.
    apply prod_small; lia. }
  assert (Hrpos : forall k, (k < nrow)%nat -> 0 < nth k rt 0) by (intros k Hk; apply Hpr, nth_In; lia).
  assert (Hfn : forall k, (k < ncol - 1)%nat -> nth k (firstn (ncol - 1) ct) 0 = nth k ct 0).
  { intros k Hk. rewrite <- (firstn_skipn (ncol - 1) ct) at 2. rewrite app_nth1; [reflexivity|]. rewrite firstn_length. lia. }
  eapply wp_bind.
  { apply (row_loop_wp libm_exp libm_log small term (zsum rt) nrow ncol Hntot (fun s => s) Hsize Hnc rt ct Hlr Hrpos Hnr
            (nrow - 1) fuel 0 (nth (ncol - 1) ct 0)).
    - intros T. exact T.
    - lia.
    - unfold row_inv. cbn [r_jc r_ib r_jwork r_seed r_mat].
      assert (Hsc : zsum rt = ssum (J (firstn (ncol - 1) ct)) 0 (ncol - 1) + nth (ncol - 1) ct 0).
      { rewrite Heq, zsum_ssum0, Hlc. replace ncol with (S (ncol - 1)) at 1 by lia. rewrite ssum_last. cbn [Nat.add].
        f_equal. apply ssum_ext. intros k Hk. unfold J. rewrite Hfn by lia. reflexivity. }
      split; [rewrite firstn_length; lia|]. split; [exact HM|].
      split; [intros k Hk; unfold J; rewrite Hfn by lia; assert (0 < nth k ct 0); [apply Hpc, nth_In; lia|lia]|].
      split; [assert (0 < nth (ncol - 1) ct 0); [apply Hpc, nth_In; lia|lia]|].
      split; [exact Hseed|]. split; [exact Hsc|].
      split; [rewrite zsum_ssum0, Hlr, Nat.sub_0_r; reflexivity|]. split; [lia|].
      split; [intros; lia|]. split; [intros; lia|].
      split; [intros k Hk; cbn [ssum]; unfold J; rewrite Hfn by lia; lia|].
      split; [cbn [ssum]; lia|]. intros; lia. }
  intros st (K & I1 & I2 & I3 & I4 & I5 & I6 & I7 & I8 & I9 & I10 & I11 & I12 & I13).
  eapply wp_bind; [apply (last_row_wp small term nrow ncol Hsize Hnc rt Hlr Hnr (ncol - 1) 0); [lia|exact I1|exact I2]|].
  intros mt (L1 & L2 & L3).
  apply wp_bind_midx with (ncol := ncol); [lia|lia|assumption|].
  apply (wp_bind_rd _ _ _ _ 0); [rewrite L1; split; [apply Nat2Z.is_nonneg|apply inj_lt, idx_lt; lia]|].
  rewrite Nat2Z.id. fold (cell nrow mt (nrow - 1) (ncol - 2)).
  rewrite L2 by lia. rewrite I13 by lia.
  replace (J (r_jwork st) (ncol - 2) + K - J (r_jwork st) (ncol - 2)) with K by lia.
  assert (HJs : 0 <= ssum (J (r_jwork st)) 0 (ncol - 1)) by (apply ssum_nonneg; intros; apply I3; lia).
  apply wp_bind_ck; [unfold int_min, int_max in *; lia|]. intros _.
  apply wp_bind_midx with (ncol := ncol); [lia|lia|assumption|].
  apply wp_bind_wr; [rewrite L1; split; [apply Nat2Z.is_nonneg|apply inj_lt, idx_lt; lia]|].
  rewrite Nat2Z.id. cbn [wp fst snd]. split; [|exact I5].
  set (M := upd mt (nrow - 1 + (ncol - 1) * nrow) K).
  assert (Hcell : forall l k, (l < nrow)%nat -> (k < ncol)%nat -> cell nrow M l k =
     if Nat.eqb l (nrow - 1) then (if Nat.eqb k (ncol - 1) then K else J (r_jwork st) k) else cell nrow (r_mat st) l k).
  { intros l k Hl Hk. unfold M. rewrite (cell_upd nrow ncol) by (auto; lia).
    destruct (Nat.eqb_spec l (nrow - 1)) as [->|Hne]; simpl.
    - destruct (Nat.eqb_spec k (ncol - 1)); [reflexivity|]. apply L2. lia.
    - apply L3; [assumption|left; assumption]. }
  unfold is_table. split; [unfold M; rewrite upd_length; exact L1|]. split.
  { intros x Hx. apply (In_nth _ _ 0) in Hx. destruct Hx as (i & Hi & <-).
    assert (Hd : (i = i mod nrow + i / nrow * nrow)%nat) by (pose proof (Nat.div_mod i nrow); lia).
    pose proof (Nat.mod_upper_bound i nrow ltac:(lia)) as Hm.
    assert (Hq : (i / nrow < ncol)%nat) by (apply Nat.div_lt_upper_bound; [lia|]; unfold M in Hi; rewrite upd_length, L1 in Hi; exact Hi).
    rewrite Hd. fold (cell nrow M (i mod nrow) (i / nrow)). rewrite Hcell by assumption.
    destruct (Nat.eqb_spec (i mod nrow) (nrow - 1)).
    - destruct (Nat.eqb_spec (i / nrow) (ncol - 1)); [lia|apply I3; lia].
    - apply I9; lia. }
  split.
  - intros l Hl. rewrite zsum_map_seq. change (fun m => nth (l + m * nrow) M 0) with (cell nrow M l).
    destruct (Nat.eq_dec l (nrow - 1)) as [->|Hne].
    + replace ncol with (S (ncol - 1)) at 1 by lia. rewrite ssum_last. cbn [Nat.add].
      rewrite (Hcell (nrow - 1)%nat (ncol - 1)%nat), !Nat.eqb_refl by lia.
      rewrite (ssum_ext _ _ (J (r_jwork st))).
      * rewrite <- I6, I7. replace (nrow - (nrow - 1))%nat with 1%nat by lia. cbn [ssum]. lia.
      * intros k Hk. rewrite Hcell, Nat.eqb_refl by lia.
        destruct (Nat.eqb_spec k (ncol - 1)); [lia|reflexivity].
    + rewrite <- (I10 l) by lia. apply ssum_ext. intros k Hk.
      rewrite Hcell by lia. destruct (Nat.eqb_spec l (nrow - 1)); [lia|reflexivity].
  - intros m Hm. rewrite zsum_map_seq.
    change (fun l => nth (l + m * nrow) M 0) with (fun l => cell nrow M l m).
    assert (HS : forall f, ssum f 0 nrow = ssum f 0 (nrow - 1) + f (nrow - 1)%nat)
      by (intros f; replace nrow with (S (nrow - 1)) at 1 by lia; apply ssum_last).
    rewrite HS.
    rewrite (ssum_ext _ _ (fun i => cell nrow (r_mat st) i m)).
    + rewrite Hcell, Nat.eqb_refl by lia.
      destruct (Nat.eqb_spec m (ncol - 1)) as [->|Hne]; [exact I12|apply I11; lia].
    + intros i Hi. rewrite Hcell by lia. destruct (Nat.eqb_spec i (nrow - 1)); [lia|reflexivity].
Qed.
