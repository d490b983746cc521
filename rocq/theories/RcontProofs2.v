(** Further facts about [rcont2]: overflow, error codes, independence of uninitialised memory. *)
From Coq Require Import ZArith List Bool Lia.
Import ListNotations.
From Verif Require Import F64 RcontModel SpecRcont RcontProofs.
Open Scope Z_scope.

Section Ovf.
Variables libm_exp libm_log : f64 -> f64.

Lemma ck_ovf : forall z, int_max < z -> ck z = CErr IntOverflow.
Proof. intros z H. destruct (ck_cases z) as [[E _]|[_ E]]; [unfold int_max in *; lia|exact E]. Qed.

Lemma ck_in : forall z, int_min <= z <= int_max -> ck z = COk z.
Proof. intros z H. destruct (ck_cases z) as [[_ E]|[E _]]; [exact E|contradiction]. Qed.

(** if the product of the first row total and the first column total does not fit in an int, the very first
    cell overflows, whatever the seed *)
Lemma rcont2_overflow : forall fuel ib0 nrow ncol rt ct seed mat,
  valid_totals nrow ncol rt ct -> int32 seed -> (1 <= fuel)%nat ->
  int_max < nth 0 rt 0 * nth 0 ct 0 ->
  rcont2 libm_exp libm_log fuel ib0 nrow ncol rt ct seed mat = CErr IntOverflow.
Proof.
  intros fuel ib0 nrow ncol rt ct seed mat (Hnr & Hnc & Hlr & Hlc & Hpr & Hpc & Heq) Hseed Hf Hov.
  unfold rcont2.
  destruct (Nat.leb_spec nrow 1); [lia|]. destruct (Nat.leb_spec ncol 1); [lia|].
  rewrite !existsb_pos by assumption.
  unfold i4vec_sum. rewrite !i4vec_sum_spec by (try assumption; unfold int32, int_min, int_max; lia).
  cbn [Z.add]. rewrite <- Heq.
  destruct (Z.leb_spec (zsum rt) int_max) as [Hmax|Hmax]; cbn [cbind]; [|reflexivity].
  rewrite Z.eqb_refl. cbn [negb].
  assert (Hz0 : 0 < zsum rt) by (pose proof (zsum_ge_length rt Hpr); lia).
  destruct (ck_cases (zsum rt + 1)) as [[Hn1 ->]|[_ ->]]; cbn [cbind]; [|reflexivity].
  destruct nrow as [|[|nrow]]; [lia|lia|]. destruct ncol as [|[|ncol]]; [lia|lia|].
  destruct rt as [|t rt]; [discriminate|]. destruct ct as [|d ct]; [discriminate|]. cbn [nth] in Hov.
  pose proof (Hpr t (or_introl eq_refl)) as Ht. pose proof (Hpc d (or_introl eq_refl)) as Hd.
  assert (Hrr : 0 <= zsum rt) by (assert (X := zsum_ge_length rt (fun x Hx => Hpr x (or_intror Hx))); lia).
  assert (Hcc : 0 <= zsum ct) by (assert (X := zsum_ge_length ct (fun x Hx => Hpc x (or_intror Hx))); lia).
  cbn [zsum fold_right] in Heq, Hmax, Hz0, Hn1 |- *. fold (zsum rt) in *. fold (zsum ct) in *.
  assert (HT : t + zsum rt = d + zsum ct) by exact Heq.
  unfold int_max, int_min in *.
  replace (S (S nrow) - 1)%nat with (S nrow) by lia. replace (S (S ncol) - 1)%nat with (S ncol) by lia.
  cbn [row_loop r_jc r_ib r_jwork r_seed r_mat firstn]. cbn [rd Z.of_nat Z.to_nat nth_error Z.ltb Z.compare].
  cbn [cbind]. rewrite (ck_in (t + zsum rt - t)) by (unfold int_min, int_max; lia). cbn [cbind].
  replace (S (S ncol) - 1)%nat with (S ncol) by lia.
  cbn [col_loop c_ia c_ic c_ib c_jwork c_seed c_mat]. cbn [rd Z.of_nat Z.to_nat nth_error Z.ltb Z.compare cbind].
  rewrite (ck_in (t + zsum rt - d)) by (unfold int_min, int_max; lia). cbn [cbind].
  rewrite (ck_in (t + zsum rt - t)) by (unfold int_min, int_max; lia). cbn [cbind].
  rewrite (ck_in (t + zsum rt - t - d)) by (unfold int_min, int_max; lia). cbn [cbind].
  destruct (Z.eqb_spec (t + zsum rt) 0); [lia|].
  destruct (variate_of_seed seed Hseed) as (u & s' & -> & _). cbn [cbind fst snd].
  destruct fuel as [|fuel]; [lia|]. cbn [attempts].
  rewrite ck_ovf by (unfold int_max; lia). reflexivity.
Qed.

(** error codes *)
Lemma rcont2_errors : forall fuel ib0 nrow ncol rt ct seed mat,
  length rt = nrow -> length ct = ncol -> length mat = (nrow * ncol)%nat -> int32 seed ->
  libm_ok libm_exp libm_log -> (2 <= fuel)%nat ->
  zsum rt <= 46340 -> zsum ct <= 46340 ->
  (exists M s', rcont2 libm_exp libm_log fuel ib0 nrow ncol rt ct seed mat = COk (M, s') /\ is_table nrow ncol rt ct M) /\
     valid_totals nrow ncol rt ct
  \/ (exists code, In code [1; 2; 3; 4; 6] /\ rcont2 libm_exp libm_log fuel ib0 nrow ncol rt ct seed mat = CErr (IErr code)) /\
     ~ valid_totals nrow ncol rt ct.
Proof.
  intros fuel ib0 nrow ncol rt ct seed mat Hlr Hlc HM Hseed Hok Hf Hs1 Hs2.
  destruct (Nat.leb_spec nrow 1) as [H1|H1].
  { right. split; [|unfold valid_totals; lia]. exists 1. split; [simpl; auto|].
    unfold rcont2. destruct (Nat.leb_spec nrow 1); [reflexivity|lia]. }
  destruct (Nat.leb_spec ncol 1) as [H2|H2].
  { right. split; [|unfold valid_totals; lia]. exists 2. split; [simpl; auto|].
    unfold rcont2. destruct (Nat.leb_spec nrow 1); [lia|]. destruct (Nat.leb_spec ncol 1); [reflexivity|lia]. }
  destruct (existsb (fun t => t <=? 0) rt) eqn:E3.
  { right. split.
    - exists 3. split; [simpl; auto|]. unfold rcont2.
      destruct (Nat.leb_spec nrow 1); [lia|]. destruct (Nat.leb_spec ncol 1); [lia|]. rewrite E3. reflexivity.
    - intros (_ & _ & _ & _ & Hp & _). rewrite existsb_pos in E3 by assumption. discriminate. }
  destruct (existsb (fun t => t <=? 0) ct) eqn:E4.
  { right. split.
    - exists 4. split; [simpl; auto|]. unfold rcont2.
      destruct (Nat.leb_spec nrow 1); [lia|]. destruct (Nat.leb_spec ncol 1); [lia|]. rewrite E3, E4. reflexivity.
    - intros (_ & _ & _ & _ & _ & Hp & _). rewrite (existsb_pos ct) in E4 by assumption. discriminate. }
  assert (Hp : forall l, existsb (fun t => t <=? 0) l = false -> forall x, In x l -> 0 < x).
  { intros l E x Hx. destruct (Z.leb_spec x 0) as [Hle|Hgt]; [|exact Hgt].
    assert (existsb (fun t => t <=? 0) l = true) by (apply existsb_exists; exists x; split; [exact Hx|lia]). congruence. }
  pose proof (Hp rt E3) as Hpr. pose proof (Hp ct E4) as Hpc.
  destruct (Z.eq_dec (zsum rt) (zsum ct)) as [E|E].
  - left. assert (V : valid_totals nrow ncol rt ct) by (unfold valid_totals; repeat split; auto; lia).
    split; [|exact V].
    pose proof (rcont2_wp libm_exp libm_log fuel ib0 nrow ncol rt ct seed mat V HM Hseed) as W.
    destruct (rcont2 _ _ _ _ _ _ _ _ _ _) as [[M s']|e].
    + exists M, s'. split; [reflexivity|]. exact (proj1 W).
    + exfalso. destruct e; simpl in W; auto.
  - right. split.
    + exists 6. split; [simpl; auto 6|]. unfold rcont2.
      destruct (Nat.leb_spec nrow 1); [lia|]. destruct (Nat.leb_spec ncol 1); [lia|]. rewrite E3, E4.
      unfold i4vec_sum. rewrite !i4vec_sum_spec by (try assumption; unfold int32, int_min, int_max; lia).
      cbn [Z.add]. unfold int_max.
      destruct (Z.leb_spec (zsum ct) 2147483647); [|lia]. cbn [cbind].
      destruct (Z.leb_spec (zsum rt) 2147483647); [|lia]. cbn [cbind].
      destruct (Z.eqb_spec (zsum ct) (zsum rt)); [congruence|reflexivity].
    + intros (_ & _ & _ & _ & _ & _ & E'). congruence.
Qed.

(* ------------------------------------------------------------------ *)
(** ** The result does not depend on the uninitialised variables: the content of the
    output buffer (np.empty) and the local [ib] *)

Lemma wr_ok : forall (A : Type) (l : list A) i a, 0 <= i < Z.of_nat (length l) -> wr l i a = COk (upd l (Z.to_nat i) a).
Proof. intros A l i a H. unfold wr. replace ((0 <=? i) && (i <? Z.of_nat (length l))) with true by lia. reflexivity. Qed.

Variables nrow ncol : nat.

(** the two buffers agree on the cells that have been written: rows above [l], and columns before [m] of row [l] *)
Definition agree (l m : nat) (a b : list Z) : Prop :=
  length a = (nrow * ncol)%nat /\ length b = (nrow * ncol)%nat /\
  forall l' k, (l' < nrow)%nat -> (k < ncol)%nat -> (l' < l)%nat \/ (l' = l /\ (k < m)%nat) -> cell nrow a l' k = cell nrow b l' k.

Lemma midx_ok : forall l m, (l < nrow)%nat -> (m < ncol)%nat ->
  midx nrow l m = COk (Z.of_nat (l + m * nrow)) \/ midx nrow l m = CErr IntOverflow.
Proof.
  intros l m Hl Hm. unfold midx. destruct (ck_cases (Z.of_nat m * Z.of_nat nrow)) as [[_ ->]|[_ ->]]; cbn [cbind]; [|auto].
  replace (Z.of_nat l + Z.of_nat m * Z.of_nat nrow) with (Z.of_nat (l + m * nrow)) by lia.
  destruct (ck_cases (Z.of_nat (l + m * nrow))) as [[_ ->]|[_ ->]]; auto.
Qed.

Definition rel {A} (R : A -> A -> Prop) (x y : cres A) : Prop :=
  match x, y with COk a, COk b => R a b | CErr e, CErr f => e = f | _, _ => False end.

Lemma agree_upd : forall l m a b v, (l < nrow)%nat -> (m < ncol)%nat -> agree l m a b ->
  agree l (S m) (upd a (l + m * nrow) v) (upd b (l + m * nrow) v).
Proof.
  intros l m a b v Hl Hm (La & Lb & H). split; [rewrite upd_length; exact La|]. split; [rewrite upd_length; exact Lb|].
  intros l' k Hl' Hk Hc. rewrite (cell_upd nrow ncol _ l m l' k v La Hl Hm Hl'), (cell_upd nrow ncol _ l m l' k v Lb Hl Hm Hl').
  destruct (Nat.eqb_spec l' l) as [->|Hne]; simpl.
  - destruct (Nat.eqb_spec k m) as [->|Hne]; simpl; [reflexivity|]. apply H; auto. right. lia.
  - apply H; auto. lia.
Qed.

Lemma agree_full : forall l a b, agree l ncol a b -> agree (S l) 0 a b.
Proof.
  intros l a b (La & Lb & H). split; [exact La|]. split; [exact Lb|].
  intros l' k Hl' Hk Hc. apply H; auto. lia.
Qed.

Lemma agree_weak : forall l m m' a b, (m' <= m)%nat -> agree l m a b -> agree l m' a b.
Proof. intros l m m' a b Hm (La & Lb & H). repeat split; auto. intros l' k Hl' Hk Hc. apply H; auto. lia. Qed.

Lemma zero_rest_rel : forall n l j a b, (j + n = ncol)%nat -> (l < nrow)%nat -> agree l j a b ->
  rel (agree l ncol) (zero_rest n nrow l j a) (zero_rest n nrow l j b).
Proof.
  induction n as [|n IH]; intros l j a b Hj Hl Ha.
  { simpl. replace ncol with j by lia. replace j with ncol in Ha by lia. replace j with ncol by lia. exact Ha. }
  cbn [zero_rest]. destruct (midx_ok l j Hl ltac:(lia)) as [->| ->]; cbn [cbind]; [|reflexivity].
  pose proof (idx_lt nrow ncol l j Hl ltac:(lia)) as Hi. destruct Ha as (La & Lb & Ha).
  rewrite !wr_ok by lia. cbn [cbind]. rewrite Nat2Z.id.
  apply IH; [lia|exact Hl|]. apply agree_upd; [exact Hl|lia|]. repeat split; auto.
Qed.

Definition crel (n l m : nat) (s t : cstate) : Prop :=
  c_ia s = c_ia t /\ c_ic s = c_ic t /\ c_jwork s = c_jwork t /\ c_seed s = c_seed t /\ agree l m (c_mat s) (c_mat t) /\
  ((n = 0)%nat -> c_ib s = c_ib t).

Lemma col_loop_rel : forall n fuel fact l m s t, (m + n = ncol - 1)%nat -> (1 <= ncol)%nat -> (l < nrow)%nat ->
  c_ia s = c_ia t -> c_ic s = c_ic t -> c_jwork s = c_jwork t -> c_seed s = c_seed t -> agree l m (c_mat s) (c_mat t) ->
  ((n = 0)%nat -> c_ib s = c_ib t) ->
  rel (crel 0 l (ncol - 1)) (col_loop libm_exp n fuel fact nrow ncol l m s) (col_loop libm_exp n fuel fact nrow ncol l m t).
Proof.
  induction n as [|n IH]; intros fuel fact l m s t Hm Hnc Hl E1 E2 E3 E4 Ha Hib.
  { simpl. unfold crel. replace (ncol - 1)%nat with m by lia. auto 10. }
  cbn [col_loop]. rewrite E1, E2, E3, E4.
  destruct (rd (c_jwork t) (Z.of_nat m)) as [id|]; cbn [cbind]; [|reflexivity].
  destruct (ck (c_ic t - id)) as [ic|]; cbn [cbind]; [|reflexivity].
  destruct (ck (c_ic t - c_ia t)) as [ib|]; cbn [cbind]; [|reflexivity].
  destruct (ck (ib - id)) as [ii|]; cbn [cbind]; [|reflexivity].
  destruct (c_ic t =? 0).
  - pose proof (zero_rest_rel (ncol - m) l m _ _ ltac:(lia) Hl Ha) as HZ.
    destruct (zero_rest (ncol - m) nrow l m (c_mat s)) as [x|e], (zero_rest (ncol - m) nrow l m (c_mat t)) as [y|f]; simpl in *; try contradiction; try congruence.
    unfold crel. cbn [c_ia c_ic c_ib c_jwork c_seed c_mat]. repeat (split; [reflexivity|]). split; [|reflexivity].
    eapply agree_weak; [|exact HZ]. lia.
  - destruct (r8_uniform_01 (c_seed t)) as [u|]; cbn [cbind]; [|reflexivity].
    destruct (attempts _ _ _ _ _ _ _ _ _ _ _) as [v|]; cbn [cbind]; [|reflexivity].
    destruct (midx_ok l m Hl ltac:(lia)) as [->| ->]; cbn [cbind]; [|reflexivity].
    pose proof (idx_lt nrow ncol l m Hl ltac:(lia)) as Hi. destruct Ha as (La & Lb & Ha).
    rewrite !wr_ok by lia. cbn [cbind]. rewrite Nat2Z.id.
    destruct (ck (c_ia t - fst v)) as [ia'|]; cbn [cbind]; [|reflexivity].
    destruct (ck (id - fst v)) as [jm|]; cbn [cbind]; [|reflexivity].
    destruct (wr (c_jwork t) (Z.of_nat m) jm) as [jw|]; cbn [cbind]; [|reflexivity].
    apply IH; cbn [c_ia c_ic c_ib c_jwork c_seed c_mat]; auto; [lia|].
    apply agree_upd; [exact Hl|lia|]. repeat split; auto.
Qed.

Lemma row_loop_rel : forall n fuel fact rt l s t, (l + n = nrow - 1)%nat -> (2 <= ncol)%nat -> (1 <= nrow)%nat ->
  r_jc s = r_jc t -> r_jwork s = r_jwork t -> r_seed s = r_seed t -> agree l 0 (r_mat s) (r_mat t) ->
  ((n = 0)%nat -> r_ib s = r_ib t) ->
  rel (fun s' t' => r_jc s' = r_jc t' /\ r_jwork s' = r_jwork t' /\ r_seed s' = r_seed t' /\ agree (nrow - 1) 0 (r_mat s') (r_mat t') /\
                    r_ib s' = r_ib t')
    (row_loop libm_exp n fuel fact rt nrow ncol l s) (row_loop libm_exp n fuel fact rt nrow ncol l t).
Proof.
  induction n as [|n IH]; intros fuel fact rt l s t Hl Hnc Hnr E1 E2 E3 Ha Hib.
  { simpl. replace (nrow - 1)%nat with l by lia. auto 10. }
  cbn [row_loop]. rewrite E1, E2, E3.
  destruct (rd rt (Z.of_nat l)) as [tl|]; cbn [cbind]; [|reflexivity].
  destruct (ck (r_jc t - tl)) as [jc|]; cbn [cbind]; [|reflexivity].
  match goal with |- rel _ (cbind ?x _) (cbind ?y _) => assert (HC : rel (crel 0 l (ncol - 1)) x y) end.
  { apply col_loop_rel; cbn [c_ia c_ic c_ib c_jwork c_seed c_mat]; auto; try lia. }
  match type of HC with rel _ ?x ?y => destruct x as [c|e], y as [d|f]; simpl in HC; try contradiction end.
  2:{ subst f. reflexivity. }
  destruct HC as (C1 & C2 & C3 & C4 & (La & Lb & Ca) & C6). cbn [cbind]. rewrite C1.
  destruct (midx_ok l (ncol - 1) ltac:(lia) ltac:(lia)) as [->| ->]; cbn [cbind]; [|reflexivity].
  pose proof (idx_lt nrow ncol l (ncol - 1) ltac:(lia) ltac:(lia)) as Hi.
  rewrite !wr_ok by (rewrite ?La, ?Lb; split; [apply Nat2Z.is_nonneg|apply inj_lt; exact Hi]). cbn [cbind]. rewrite Nat2Z.id.
  apply IH; cbn [r_jc r_ib r_jwork r_seed r_mat]; auto; [lia|].
  apply agree_full. replace ncol with (S (ncol - 1)) at 1 by lia. apply agree_upd; [lia|lia|]. repeat split; auto.
Qed.

Lemma last_row_rel : forall n j jw a b, (j + n = ncol - 1)%nat -> (1 <= nrow)%nat -> (1 <= ncol)%nat -> agree (nrow - 1) j a b ->
  rel (agree (nrow - 1) (ncol - 1)) (last_row n nrow j jw a) (last_row n nrow j jw b).
Proof.
  induction n as [|n IH]; intros j jw a b Hj Hnr Hnc Ha.
  { simpl. replace (ncol - 1)%nat with j by lia. exact Ha. }
  cbn [last_row]. destruct (midx_ok (nrow - 1) j ltac:(lia) ltac:(lia)) as [->| ->]; cbn [cbind]; [|reflexivity].
  destruct (rd jw (Z.of_nat j)) as [v|]; cbn [cbind]; [|reflexivity].
  pose proof (idx_lt nrow ncol (nrow - 1) j ltac:(lia) ltac:(lia)) as Hi. destruct Ha as (La & Lb & Ha).
  rewrite !wr_ok by (rewrite ?La, ?Lb; split; [apply Nat2Z.is_nonneg|apply inj_lt; exact Hi]). cbn [cbind]. rewrite Nat2Z.id.
  apply IH; [lia|exact Hnr|exact Hnc|]. apply agree_upd; [lia|lia|]. repeat split; auto.
Qed.

Lemma agree_eq : forall a b, (0 < nrow)%nat -> agree (nrow - 1) ncol a b -> a = b.
Proof.
  intros a b Hn (La & Lb & H). apply (nth_ext _ _ 0 0); [congruence|].
  intros i Hi. assert (Hd : (i = i mod nrow + i / nrow * nrow)%nat) by (pose proof (Nat.div_mod i nrow); lia).
  pose proof (Nat.mod_upper_bound i nrow ltac:(lia)) as Hm.
  assert (Hq : (i / nrow < ncol)%nat) by (apply Nat.div_lt_upper_bound; [lia|]; rewrite La in Hi; exact Hi).
  rewrite Hd. apply H; auto. lia.
Qed.

Lemma rcont2_indep : forall fuel ib1 ib2 rt ct seed m1 m2,
  length m1 = (nrow * ncol)%nat -> length m2 = (nrow * ncol)%nat ->
  rcont2 libm_exp libm_log fuel ib1 nrow ncol rt ct seed m1 = rcont2 libm_exp libm_log fuel ib2 nrow ncol rt ct seed m2.
Proof.
  intros fuel ib1 ib2 rt ct seed m1 m2 H1 H2. unfold rcont2.
  destruct (Nat.leb_spec nrow 1) as [|Hnr]; [reflexivity|]. destruct (Nat.leb_spec ncol 1) as [|Hnc]; [reflexivity|].
  destruct (existsb _ rt); [reflexivity|]. destruct (existsb _ ct); [reflexivity|].
  destruct (i4vec_sum ct) as [sc|]; cbn [cbind]; [|reflexivity].
  destruct (i4vec_sum rt) as [sr|]; cbn [cbind]; [|reflexivity].
  destruct (negb (sc =? sr)); [reflexivity|].
  destruct (ck (sc + 1)); cbn [cbind]; [|reflexivity].
  match goal with |- cbind ?x _ = cbind ?y _ =>
    pose proof (row_loop_rel (nrow - 1) fuel (fact_table libm_log sc) rt 0 (mkR sc ib1 (firstn (ncol - 1) ct) seed m1)
       (mkR sc ib2 (firstn (ncol - 1) ct) seed m2)) as HR; cbn [r_jc r_ib r_jwork r_seed r_mat] in HR;
    assert (HR' := HR ltac:(lia) ltac:(lia) ltac:(lia) eq_refl eq_refl eq_refl); clear HR; rename HR' into HR;
    assert (HR' := HR ltac:(repeat split; auto; intros; lia) ltac:(intros; lia)); clear HR;
    destruct x as [s|e], y as [t|f]; simpl in HR'; try contradiction; try congruence end.
  cbn [cbind]. destruct HR' as (R1 & R2 & R3 & R4 & R5). rewrite R2, R3, R5.
  pose proof (last_row_rel (ncol - 1) 0 (r_jwork t) _ _ ltac:(lia) ltac:(lia) ltac:(lia) R4) as HL.
  destruct (last_row (ncol - 1) nrow 0 (r_jwork t) (r_mat s)) as [x|e], (last_row (ncol - 1) nrow 0 (r_jwork t) (r_mat t)) as [y|f];
    simpl in HL; try contradiction; try congruence.
  cbn [cbind]. destruct HL as (La & Lb & Ha).
  destruct (midx_ok (nrow - 1) (ncol - 2) ltac:(lia) ltac:(lia)) as [->| ->]; cbn [cbind]; [|reflexivity].
  pose proof (idx_lt nrow ncol (nrow - 1) (ncol - 2) ltac:(lia) ltac:(lia)) as Hi.
  assert (Hrd : forall l, length l = (nrow * ncol)%nat -> rd l (Z.of_nat (nrow - 1 + (ncol - 2) * nrow)) = COk (cell nrow l (nrow - 1) (ncol - 2))).
  { intros l Hl. unfold rd. destruct (Z.ltb_spec (Z.of_nat (nrow - 1 + (ncol - 2) * nrow)) 0) as [H|H]; [exfalso; pose proof (Nat2Z.is_nonneg (nrow - 1 + (ncol - 2) * nrow)) as H'; apply (Z.lt_irrefl 0); eapply Z.le_lt_trans; eassumption|]. rewrite Nat2Z.id.
    rewrite (nth_error_nth' l 0) by (rewrite Hl; exact Hi). reflexivity. }
  rewrite !Hrd by assumption. cbn [cbind]. rewrite (Ha (nrow - 1)%nat (ncol - 2)%nat) by lia.
  destruct (ck (r_ib t - cell nrow y (nrow - 1) (ncol - 2))) as [w|]; cbn [cbind]; [|reflexivity].
  destruct (midx_ok (nrow - 1) (ncol - 1) ltac:(lia) ltac:(lia)) as [->| ->]; cbn [cbind]; [|reflexivity].
  pose proof (idx_lt nrow ncol (nrow - 1) (ncol - 1) ltac:(lia) ltac:(lia)) as Hi2.
  rewrite !wr_ok by (rewrite ?La, ?Lb; split; [apply Nat2Z.is_nonneg|apply inj_lt; exact Hi2]). cbn [cbind]. rewrite Nat2Z.id.
  f_equal. f_equal. apply agree_eq; [lia|].
  replace ncol with (S (ncol - 1)) at 1 by lia. apply agree_upd; [lia|lia|]. repeat split; auto.
Qed.
End Ovf.

(* ------------------------------------------------------------------ *)
(** ** Statements used by PropsRcont.v *)
From Coq Require Import Reals Lra.

Lemma generator_any : forall seed, int32 seed ->
  exists u, r8_uniform_01 seed = COk (u, (16807 * seed) mod (2 ^ 31 - 1)) /\ ffin u = true /\ (0 <= f2R u < 1)%R.
Proof.
  intros seed H. eexists. split; [apply r8_ok; exact H|].
  pose proof (variate_spec _ (lcg_range (16807 * seed))) as V. cbv zeta in V. tauto.
Qed.

Lemma generator_spec : forall seed, 1 <= seed <= 2 ^ 31 - 2 ->
  exists u, r8_uniform_01 seed = COk (u, (16807 * seed) mod (2 ^ 31 - 1)) /\
            1 <= (16807 * seed) mod (2 ^ 31 - 1) <= 2 ^ 31 - 2 /\
            ffin u = true /\ (0 < f2R u < 1)%R.
Proof.
  intros seed H. eexists. split; [apply r8_ok; unfold int_min, int_max; lia|].
  pose proof (lcg_range (16807 * seed)) as R. pose proof (lcg_nonzero seed ltac:(unfold lcg_p; lia)) as N.
  pose proof (variate_spec _ R) as V. cbv zeta in V.
  destruct V as (V1 & V2 & _ & V4). specialize (V4 N).
  change (2 ^ 31 - 1) with lcg_p. split; [unfold lcg_p in *; lia|]. split; [exact V1|]. split; [exact V4|apply V2].
Qed.

Lemma generator_zero : exists u, r8_uniform_01 0 = COk (u, 0) /\ f2R u = 0%R.
Proof.
  eexists. split; [rewrite r8_ok by (unfold int_min, int_max; lia); reflexivity|].
  pose proof (variate_spec 0 ltac:(unfold lcg_p; lia)) as V. cbv zeta in V. tauto.
Qed.

Lemma rcont2_totals : forall libm_exp libm_log fuel ib0 nrow ncol rt ct seed mat M seed',
  valid_totals nrow ncol rt ct -> length mat = (nrow * ncol)%nat -> int32 seed ->
  rcont2 libm_exp libm_log fuel ib0 nrow ncol rt ct seed mat = COk (M, seed') ->
  is_table nrow ncol rt ct M.
Proof.
  intros libm_exp libm_log fuel ib0 nrow ncol rt ct seed mat M seed' V L S E.
  pose proof (rcont2_wp libm_exp libm_log fuel ib0 nrow ncol rt ct seed mat V L S) as W. rewrite E in W. exact (proj1 W).
Qed.

Lemma rcont2_safe : forall libm_exp libm_log fuel ib0 nrow ncol rt ct seed mat,
  valid_totals nrow ncol rt ct -> length mat = (nrow * ncol)%nat -> int32 seed ->
  (exists M seed', rcont2 libm_exp libm_log fuel ib0 nrow ncol rt ct seed mat = COk (M, seed')) \/
  rcont2 libm_exp libm_log fuel ib0 nrow ncol rt ct seed mat = CErr IntOverflow \/
  rcont2 libm_exp libm_log fuel ib0 nrow ncol rt ct seed mat = CErr OutOfFuel.
Proof.
  intros libm_exp libm_log fuel ib0 nrow ncol rt ct seed mat V L S.
  pose proof (rcont2_wp libm_exp libm_log fuel ib0 nrow ncol rt ct seed mat V L S) as W.
  destruct (rcont2 _ _ _ _ _ _ _ _ _ _) as [[M s']|[]]; simpl in W; eauto; contradiction.
Qed.

Lemma rcont2_terminates : forall libm_exp libm_log ib0 nrow ncol rt ct seed mat fuel,
  valid_totals nrow ncol rt ct -> length mat = (nrow * ncol)%nat -> int32 seed ->
  libm_ok libm_exp libm_log -> (2 <= fuel)%nat ->
  rcont2 libm_exp libm_log fuel ib0 nrow ncol rt ct seed mat <> CErr OutOfFuel.
Proof.
  intros libm_exp libm_log ib0 nrow ncol rt ct seed mat fuel V L S C F E.
  pose proof (rcont2_wp libm_exp libm_log fuel ib0 nrow ncol rt ct seed mat V L S) as W.
  rewrite E in W. simpl in W. auto.
Qed.

Lemma rcont2_small : forall libm_exp libm_log ib0 nrow ncol rt ct seed mat fuel,
  valid_totals nrow ncol rt ct -> length mat = (nrow * ncol)%nat -> int32 seed ->
  libm_ok libm_exp libm_log -> (2 <= fuel)%nat -> zsum rt <= 46340 ->
  exists M seed', rcont2 libm_exp libm_log fuel ib0 nrow ncol rt ct seed mat = COk (M, seed') /\ is_table nrow ncol rt ct M.
Proof.
  intros libm_exp libm_log ib0 nrow ncol rt ct seed mat fuel V L S C F Z.
  pose proof (rcont2_wp libm_exp libm_log fuel ib0 nrow ncol rt ct seed mat V L S) as W.
  destruct (rcont2 _ _ _ _ _ _ _ _ _ _) as [[M s']|[]]; simpl in W; try tauto.
  exists M, s'. split; [reflexivity|]. exact (proj1 W).
Qed.

Lemma rcont2_overflow_witness : exists nrow ncol rt ct, valid_totals nrow ncol rt ct /\ zsum rt <= 100000 /\
  forall libm_exp libm_log fuel ib0 seed mat, int32 seed -> (1 <= fuel)%nat ->
  rcont2 libm_exp libm_log fuel ib0 nrow ncol rt ct seed mat = CErr IntOverflow.
Proof.
  exists 2%nat, 2%nat, [50000; 50000], [50000; 50000].
  assert (V : valid_totals 2 2 [50000; 50000] [50000; 50000]).
  { unfold valid_totals. repeat split; try lia; intros x [<-|[<-|[]]]; lia. }
  split; [exact V|]. split; [vm_compute; discriminate|].
  intros. apply rcont2_overflow; auto. vm_compute. reflexivity.
Qed.

Lemma rcont2_example_valid : valid_totals 2 3 [5; 4] [2; 3; 4] /\ libm_ok (fun _ => ofZ 1) (fun _ => fzero) /\ int32 12345.
Proof.
  split; [|split].
  - unfold valid_totals. repeat split; try lia; intros x; simpl; intuition lia.
  - split; [intros; reflexivity|]. intros i Hi. split; [reflexivity|]. unfold f2R, fzero. simpl. lra.
  - unfold int32, int_min, int_max. lia.
Qed.
