(** C78: the tables drawn with fixed row and column totals have the distribution of Fisher's exact test. *)
From Coq Require Import ZArith List Reals Lia Lra Arith Bool.
Import ListNotations.
From Verif Require Import F64 SpecRcont SpecTableDist HyperProofs RcontModel RcontGen RcontCell RcontDist RcontRefine.
Open Scope Z_scope.

(** the program run in exact arithmetic on the variates [u 0], [u 1], ...: the table left in the buffer and the
    number of variates used *)
Definition exact_run (u : nat -> R) (fuel : nat) (ib0 : Z) (nrow ncol : nat) (rt ct buf : list Z) : cres (list Z * Z) :=
  g_rcont2 (ideal u) (S fuel) ib0 nrow ncol rt ct 0 buf.

(** the same program, on binary64 numbers, 32-bit ints and its own generator, is the bit-exact model *)
Theorem C78_same_program : forall libm_exp libm_log,
  rcont2 libm_exp libm_log = g_rcont2 (mkM f64 fplus fminus fmult fdiv fle ofZ f_trunc fzero fhalf libm_exp libm_log ck r8_uniform_01).
Proof. exact rcont2_is_g. Qed.

Lemma holds_inj : forall nrow ncol M T T', holds nrow ncol M T -> holds nrow ncol M T' -> length T = nrow -> length T' = nrow ->
  (forall row, In row T -> length row = ncol) -> (forall row, In row T' -> length row = ncol) -> T = T'.
Proof.
  intros nrow ncol M T T' [_ H] [_ H'] HL HL' HR HR'. apply (nth_ext _ _ [] []); [congruence|]. intros l Hl.
  assert (length (nth l T []) = ncol) by (apply HR, nth_In; exact Hl). assert (length (nth l T' []) = ncol) by (apply HR', nth_In; lia).
  apply (nth_ext _ _ 0 0); [congruence|]. intros m Hm. rewrite <- H, <- H' by lia. reflexivity.
Qed.

(** every table with the requested totals is the result for exactly the variates of one box, whose volume is
    its probability under independence given the totals *)
Theorem C78_probability : forall nrow ncol rt ct T, valid_totals nrow ncol rt ct -> table_with rt ct T ->
  exists I, unit_intervals I /\ volume I = fisher rt ct T /\
    forall u fuel ib0 buf, (forall k, (0 < u k <= 1)%R) -> length buf = (nrow * ncol)%nat ->
      ((exists M used, exact_run u fuel ib0 nrow ncol rt ct buf = COk (M, used) /\ holds nrow ncol M T) <-> in_box u 0 I).
Proof.
  intros nrow ncol rt ct T V HT. pose proof V as (Hnr & Hnc & Hrl & Hcl & Hr & Hc & Hs).
  assert (Hrne : rt <> []) by (intros ->; cbn [length] in Hrl; lia). assert (Hcne : ct <> []) by (intros ->; cbn [length] in Hcl; lia).
  pose proof (nonneg_pos _ Hr) as Nr. pose proof (nonneg_pos _ Hc) as Nc.
  destruct (table_dist rt ct T Hrne Hcne Nr Nc Hs) as (I & I1 & I2 & I3); [apply tab_ok_spec; assumption|].
  exists I. split; [exact I1|]. split; [exact I2|]. intros u fuel ib0 buf Hu HL.
  destruct (rcont2_refine u Hu nrow ncol Hnr Hnc fuel ib0 rt ct buf V HL) as (M & E & Hh).
  rewrite <- (proj1 (I3 u 0%nat Hu)). unfold exact_run. split.
  - intros (M' & used & E' & Hh'). rewrite E in E'. injection E' as <- _.
    pose proof (draw_table_ok u rt ct 0 Hu Hrne Hcne Nr Nc Hs) as Hok. apply tab_ok_spec in Hok; auto.
    destruct Hok as (A1 & A2 & _), HT as (B1 & B2 & _).
    apply (holds_inj nrow ncol M); auto; try congruence; intros row Hrow; [rewrite (proj1 (A2 row Hrow))|rewrite (proj1 (B2 row Hrow))]; exact Hcl.
  - intros E0. exists M, (Z.of_nat (snd (draw_table u rt ct 0))). split; [exact E|]. rewrite <- E0. exact Hh.
Qed.

(** whatever the variates, the run ends with some table with the requested totals, having used fewer
    variates than the table has cells *)
Lemma draw_row_used : forall u J a p, J <> [] -> (p <= snd (draw_row u J a p) <= p + (length J - 1))%nat.
Proof.
  intros u. induction J as [|d J IH]; intros a p H; [contradiction|]. destruct J as [|d' J]; [cbn [draw_row snd length]; lia|].
  rewrite draw_row_cons. destruct (zsum (d :: d' :: J) =? 0); cbv zeta; cbn [snd]; [cbn [length]; lia|].
  pose proof (IH (a - cell_value a d (zsum (d :: d' :: J)) (u p)) (S p) ltac:(discriminate)) as H'. cbn [length] in *. lia.
Qed.

Theorem C78_total : forall u fuel ib0 nrow ncol rt ct buf, (forall k, (0 < u k <= 1)%R) ->
  valid_totals nrow ncol rt ct -> length buf = (nrow * ncol)%nat ->
  exists M used T, exact_run u fuel ib0 nrow ncol rt ct buf = COk (M, used) /\ holds nrow ncol M T /\ table_with rt ct T /\
    0 <= used <= Z.of_nat ((nrow - 1) * (ncol - 1)).
Proof.
  intros u fuel ib0 nrow ncol rt ct buf Hu V HL. pose proof V as (Hnr & Hnc & Hrl & Hcl & Hr & Hc & Hs).
  assert (Hrne : rt <> []) by (intros ->; cbn [length] in Hrl; lia). assert (Hcne : ct <> []) by (intros ->; cbn [length] in Hcl; lia).
  pose proof (nonneg_pos _ Hr) as Nr. pose proof (nonneg_pos _ Hc) as Nc.
  destruct (rcont2_refine u Hu nrow ncol Hnr Hnc fuel ib0 rt ct buf V HL) as (M & E & Hh).
  exists M, (Z.of_nat (snd (draw_table u rt ct 0))), (fst (draw_table u rt ct 0)).
  split; [exact E|]. split; [exact Hh|]. split; [apply tab_ok_spec; auto; apply draw_table_ok; auto|].
  assert (G : forall rows J p, rows <> [] -> J <> [] -> (snd (draw_table u rows J p) <= p + (length rows - 1) * (length J - 1))%nat).
  { clear. induction rows as [|r rows IH]; intros J p Hr HJ; [contradiction|]. destruct rows as [|r' rows]; [cbn [draw_table snd length]; lia|].
    rewrite draw_table_cons. cbv zeta. cbn [snd]. pose proof (draw_row_used u J r p HJ) as H1. pose proof (draw_row_length u J r p) as HL.
    pose proof (IH (map2 Z.sub J (fst (draw_row u J r p))) (snd (draw_row u J r p)) ltac:(discriminate)) as H2.
    rewrite map2_length in H2 by (symmetry; exact HL). cbn [length] in *.
    specialize (H2 ltac:(destruct J as [|d J]; [contradiction|]; destruct (fst (draw_row u (d :: J) r p)); [discriminate HL|discriminate])). nia. }
  specialize (G rt ct 0%nat Hrne Hcne). rewrite Hrl, Hcl in G. lia.
Qed.

(** a concrete case: totals (2,1) and (1,2); the table ((0,2),(1,0)) has probability 1/3, ((1,1),(0,1)) has 2/3 *)
Example C78_example : valid_totals 2 2 [2; 1] [1; 2] /\ table_with [2; 1] [1; 2] [[0; 2]; [1; 0]] /\
  fisher [2; 1] [1; 2] [[0; 2]; [1; 0]] = (1 / 3)%R /\ fisher [2; 1] [1; 2] [[1; 1]; [0; 1]] = (2 / 3)%R.
Proof.
  split; [|split; [|split]].
  - unfold valid_totals. split; [lia|]. split; [lia|]. split; [reflexivity|]. split; [reflexivity|].
    split; [intros x [<-|[<-|[]]]; lia|]. split; [intros x [<-|[<-|[]]]; lia|]. reflexivity.
  - unfold table_with. split; [reflexivity|]. split.
    + intros row [<-|[<-|[]]]; (split; [reflexivity|]); intros x [<-|[<-|[]]]; lia.
    + split; [reflexivity|]. intros [|[|m]] Hm; [reflexivity|reflexivity|cbn [length] in Hm; lia].
  - unfold fisher, factorials, zfact. simpl. field.
  - unfold fisher, factorials, zfact. simpl. field.
Qed.
Print Assumptions C78_probability.
Print Assumptions C78_total.
