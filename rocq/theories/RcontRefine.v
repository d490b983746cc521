(** In exact arithmetic the table generator is the row-by-row drawing of [RcontDist]. *)
From Coq Require Import ZArith List Reals Lia Lra Arith Bool.
Import ListNotations.
From Verif Require Import SpecRcont SpecTableDist RSum HyperProofs RcontModel RcontGen RcontCell RcontDist RcontProofs RcontProofs2.
Open Scope Z_scope.

Section Refine.
Variable u : nat -> R.
Hypothesis Hu : forall k, (0 < u k <= 1)%R.
Variables nrow ncol : nat.
Hypothesis Hnr : (2 <= nrow)%nat.
Hypothesis Hnc : (2 <= ncol)%nat.
Notation MM := (ideal u).

Lemma i_midx : forall l m, g_midx MM nrow l m = COk (Z.of_nat (l + m * nrow)).
Proof. intros l m. unfold g_midx. cbn [cbind m_chk]. change (m_chk MM) with (fun z : Z => @COk Z z). cbv beta. cbn [cbind]. f_equal. lia. Qed.

Lemma i_wr : forall (mat : list Z) l m v, length mat = (nrow * ncol)%nat -> (l < nrow)%nat -> (m < ncol)%nat ->
  wr mat (Z.of_nat (l + m * nrow)) v = COk (upd mat (l + m * nrow) v).
Proof.
  intros mat l m v HL Hl Hm. pose proof (idx_lt nrow ncol l m Hl Hm). rewrite wr_ok by (rewrite HL; lia). rewrite Nat2Z.id. reflexivity.
Qed.

Definition jw_rel (jw Jf : list Z) : Prop :=
  length jw = (ncol - 1)%nat /\ length Jf = ncol /\ forall k, (k < ncol - 1)%nat -> nth k jw 0 = nth k Jf 0.

Lemma rd_jw : forall jw Jf m, jw_rel jw Jf -> (m < ncol - 1)%nat -> rd jw (Z.of_nat m) = COk (nth m Jf 0).
Proof.
  intros jw Jf m (HL & _ & H) Hm. unfold rd. destruct (Z.ltb_spec (Z.of_nat m) 0); [lia|]. rewrite Nat2Z.id.
  rewrite <- H by exact Hm. rewrite (nth_error_nth' jw 0) by lia. reflexivity.
Qed.

Lemma zero_rest_ideal : forall n l j mat, (j + n = ncol)%nat -> (l < nrow)%nat -> length mat = (nrow * ncol)%nat ->
  exists mt, g_zero_rest MM n nrow l j mat = COk mt /\ length mt = (nrow * ncol)%nat /\
    forall l' k, (l' < nrow)%nat -> (k < ncol)%nat -> cell nrow mt l' k = if (Nat.eqb l' l && (j <=? k)%nat)%bool then 0 else cell nrow mat l' k.
Proof.
  induction n as [|n IH]; intros l j mat Hj Hl HL.
  - exists mat. cbn [g_zero_rest]. split; [reflexivity|]. split; [exact HL|]. intros l' k Hl' Hk.
    destruct (Nat.leb_spec j k); [lia|]. rewrite andb_false_r. reflexivity.
  - cbn [g_zero_rest]. rewrite i_midx. cbn [cbind]. rewrite i_wr by (auto; lia). cbn [cbind].
    destruct (IH l (S j) (upd mat (l + j * nrow) 0)) as (mt & E & HL' & Hc); [lia|exact Hl|rewrite upd_length; exact HL|].
    exists mt. split; [exact E|]. split; [exact HL'|]. intros l' k Hl' Hk. rewrite Hc by assumption.
    rewrite (cell_upd nrow ncol mat l j l' k 0 HL Hl ltac:(lia) Hl').
    destruct (Nat.eqb_spec l' l); cbn [andb]; [|reflexivity].
    destruct (Nat.leb_spec (S j) k), (Nat.leb_spec j k), (Nat.eqb_spec k j); try lia; reflexivity.
Qed.

Lemma nth_mid : forall (pre : list Z) d post, nth (length pre) (pre ++ d :: post) 0 = d.
Proof. intros pre d post. rewrite app_nth2, Nat.sub_diag by lia. reflexivity. Qed.

Lemma last_cons : forall (x : Z) l, l <> [] -> last (x :: l) 0 = last l 0.
Proof. intros x [|y l] H; [contradiction|reflexivity]. Qed.

Lemma draw_row_length : forall J a p, length (fst (draw_row u J a p)) = length J.
Proof.
  induction J as [|d J IH]; intros a p; [reflexivity|]. destruct J as [|d' J]; [reflexivity|].
  rewrite draw_row_cons. destruct (zsum (d :: d' :: J) =? 0); [cbn [fst]; apply map_length|]. cbv zeta. cbn [fst length]. f_equal. apply IH.
Qed.

Lemma skipn_pre : forall (pre l : list Z) k, (length pre <= k)%nat -> skipn k (pre ++ l) = skipn (k - length pre) l.
Proof.
  induction pre as [|x pre IH]; intros l k H; cbn [app length] in *; [rewrite Nat.sub_0_r; reflexivity|].
  destruct k as [|k]; [lia|]. cbn [skipn]. rewrite IH by lia. reflexivity.
Qed.

Lemma map2_sub0 : forall J, map2 Z.sub J (map (fun _ => 0) J) = J.
Proof. induction J as [|d J IH]; [reflexivity|]. cbn [map map2]. rewrite IH, Z.sub_0_r. reflexivity. Qed.

(** one row *)
Lemma col_refine : forall n fuel N l pre J st p, length J = S n -> (length pre + S n = ncol)%nat -> (l < nrow)%nat ->
  jw_rel (c_jwork st) (pre ++ J) -> nonneg J -> c_ic st = zsum J -> zsum J <= N -> 0 <= c_ia st <= zsum J ->
  length (c_mat st) = (nrow * ncol)%nat -> c_seed st = Z.of_nat p ->
  let rq := draw_row u J (c_ia st) p in
  exists st', g_col_loop MM n (S fuel) (g_fact_table MM N) nrow ncol l (length pre) st = COk st' /\
    c_seed st' = Z.of_nat (snd rq) /\ c_ia st' = last (fst rq) 0 /\ jw_rel (c_jwork st') (pre ++ map2 Z.sub J (fst rq)) /\
    length (c_mat st') = (nrow * ncol)%nat /\
    (forall l' k, (l' < nrow)%nat -> (k < ncol)%nat -> ~ (l' = l /\ (length pre <= k)%nat) -> cell nrow (c_mat st') l' k = cell nrow (c_mat st) l' k) /\
    (forall k, (length pre <= k < ncol - 1)%nat -> cell nrow (c_mat st') l k = nth (k - length pre) (fst rq) 0) /\
    ((0 < n)%nat -> c_ib st' = zsum (skipn (ncol - 2) (pre ++ map2 Z.sub J (fst rq)))).
Proof.
  induction n as [|n IH]; intros fuel N l pre J st p HJ Hpre Hl Hjw Hn Hic HN Hia HL Hseed rq.
  - destruct J as [|d [|]]; cbn [length] in HJ; try lia. exists st. cbn [g_col_loop].
    unfold rq. cbn [draw_row fst snd map2 last].
    split; [reflexivity|]. split; [exact Hseed|]. split; [reflexivity|]. split.
    { destruct Hjw as (A & B & C). rewrite app_length in B. cbn [length] in B. split; [exact A|]. split; [rewrite app_length; cbn [length]; lia|].
      intros k Hk. rewrite C by exact Hk. rewrite !app_nth1 by lia. reflexivity. }
    split; [exact HL|]. split; [reflexivity|]. split; [intros k Hk; lia|]. lia.
  - destruct J as [|d [|d' J]]; cbn [length] in HJ; try lia.
    assert (Hd' := Hn). apply nonneg_cons in Hd'. destruct Hd' as [Hd HnJ]. pose proof (zsum_nonneg _ HnJ) as Hs.
    cbn [g_col_loop]. rewrite (rd_jw _ _ _ Hjw) by lia. rewrite nth_mid. cbn [cbind].
    change (m_chk MM) with (fun z : Z => @COk Z z). cbv beta. cbn [cbind].
    set (e := zsum (d :: d' :: J)) in *. assert (He : e = d + zsum (d' :: J)) by reflexivity. rewrite Hic. subst rq.
    set (a := c_ia st) in *. rewrite draw_row_cons. fold e. destruct (Z.eqb_spec e 0) as [Ez|Ez].
    + cbn [fst snd]. rewrite map2_sub0.
      assert (Hall : forall y, In y (d :: d' :: J) -> y = 0).
      { apply (row_zero (d :: d' :: J) (d :: d' :: J)); [exact Hn|exact Ez|]. clear - Hn. induction (d :: d' :: J) as [|y w IHw]; constructor.
        - apply nonneg_cons in Hn. lia. - apply IHw. apply nonneg_cons in Hn. apply Hn. }
      destruct (zero_rest_ideal (ncol - length pre) l (length pre) (c_mat st)) as (mt & E & HL' & Hc); [lia|exact Hl|exact HL|].
      rewrite E. cbn [cbind]. eexists. split; [reflexivity|]. cbn [c_seed c_ia c_jwork c_mat c_ib].
      split; [exact Hseed|]. split.
      { assert (Hz : forall w : list Z, last (map (fun _ => 0) w) 0 = 0) by (induction w as [|y [|z w] IHw]; [reflexivity|reflexivity|exact IHw]). rewrite Hz. reflexivity. }
      split; [exact Hjw|]. split; [exact HL'|]. split.
      { intros l' k Hl' Hk Hc'. rewrite Hc by assumption. destruct (Nat.eqb_spec l' l), (Nat.leb_spec (length pre) k); cbn [andb]; try reflexivity. lia. }
      split.
      { intros k Hk. rewrite Hc by (auto; lia). rewrite Nat.eqb_refl. destruct (Nat.leb_spec (length pre) k); [|lia]. cbn [andb].
        assert (Hz : forall w i, nth i (map (fun _ : Z => 0) w) 0 = 0) by (induction w as [|y w IHw]; intros [|i]; auto; cbn [map nth]; apply IHw). rewrite Hz. reflexivity. }
      intros _. rewrite skipn_pre by lia. assert (Hz : forall w i, (forall y, In y w -> y = 0) -> zsum (skipn i w) = 0).
      { clear. induction w as [|y w IHw]; intros i H; [destruct i; reflexivity|]. destruct i as [|i]; cbn [skipn].
        - rewrite zsum_cons. rewrite (H y (or_introl eq_refl)). specialize (IHw 0%nat (fun z Hz => H z (or_intror Hz))). exact IHw.
        - apply IHw. intros z Hz. apply H. right. exact Hz. }
      rewrite Hz by exact Hall. lia.
    + rewrite Hseed. change (m_unif MM) with (fun q : Z => COk (u (Z.to_nat q), q + 1)). cbv beta. cbn [cbind fst snd]. rewrite Nat2Z.id.
      rewrite (attempts_cell u fuel N a d e (u p)) by (try apply Hu; lia). cbn [cbind fst snd].
      pose proof (cell_range a d e ltac:(lia) ltac:(lia) (u p) ltac:(lia) (Hu p)) as Hc. set (v := cell_value a d e (u p)) in *. unfold hlo, hhi in Hc.
      rewrite i_midx. cbn [cbind]. rewrite i_wr by (auto; lia). cbn [cbind].
      destruct Hjw as (J1 & J2 & J3). rewrite wr_ok by lia. cbn [cbind]. rewrite Nat2Z.id.
      set (st1 := mkC (a - v) (e - d) (e - a) (upd (c_jwork st) (length pre) (d - v)) (Z.of_nat p + 1) (upd (c_mat st) (l + length pre * nrow) v)).
      destruct (IH fuel N l (pre ++ [d - v]) (d' :: J) st1 (S p)) as (st' & E & P1 & P2 & P3 & P4 & P5 & P6 & P7).
      { cbn [length]. lia. } { rewrite app_length. cbn [length]. lia. } { exact Hl. }
      { unfold st1; cbn [c_jwork]. split; [rewrite upd_length; exact J1|]. rewrite <- app_assoc. cbn [app].
        split; [rewrite app_length in *; cbn [length] in *; lia|]. intros k Hk. rewrite nth_upd by lia.
        destruct (Nat.eqb_spec k (length pre)) as [->|Hne]; [rewrite nth_mid; reflexivity|]. rewrite J3 by exact Hk.
        destruct (Nat.lt_ge_cases k (length pre)); [rewrite !app_nth1 by assumption; reflexivity|].
        rewrite !app_nth2 by lia. destruct (k - length pre)%nat as [|i] eqn:Ei; [lia|]. reflexivity. }
      { exact HnJ. } { unfold st1; cbn [c_ic]. lia. } { lia. } { unfold st1; cbn [c_ia]. lia. }
      { unfold st1; cbn [c_mat]. rewrite upd_length. exact HL. } { unfold st1; cbn [c_seed]. lia. }
      rewrite app_length in E. cbn [length] in E. replace (length pre + 1)%nat with (S (length pre)) in E by lia.
      exists st'. split; [exact E|]. cbv zeta. cbn [fst snd]. unfold st1 in P1, P2, P3, P5, P6, P7; cbn [c_ia c_mat] in P1, P2, P3, P5, P6, P7.
      split; [exact P1|]. split.
      { rewrite P2. rewrite last_cons; [reflexivity|]. intros H. pose proof (draw_row_length (d' :: J) (a - v) (S p)) as HH. rewrite H in HH. discriminate HH. }
      cbn [map2]. rewrite <- app_assoc in P3. cbn [app] in P3. split; [exact P3|]. split; [exact P4|].
      rewrite app_length in P5, P6. cbn [length] in P5, P6. split; [|split].
      { intros l' k Hl' Hk Hne. rewrite P5 by (auto; lia). rewrite (cell_upd nrow ncol _ l (length pre) l' k v HL Hl ltac:(lia) Hl').
        destruct (Nat.eqb_spec l' l), (Nat.eqb_spec k (length pre)); cbn [andb]; try reflexivity. lia. }
      { intros k Hk. destruct (Nat.eq_dec k (length pre)) as [->|Hne].
        - rewrite P5 by (auto; lia). rewrite (cell_upd nrow ncol _ l (length pre) l (length pre) v HL Hl ltac:(lia) Hl). rewrite !Nat.eqb_refl, Nat.sub_diag. reflexivity.
        - rewrite P6 by lia. replace (k - length pre)%nat with (S (k - (length pre + 1))) by lia. reflexivity. }
      { intros _. destruct n as [|n].
        - destruct J as [|]; cbn [length] in HJ; [|lia]. cbn [g_col_loop] in E. injection E as <-. unfold st1; cbn [c_ib].
          rewrite skipn_pre by lia. replace (ncol - 2 - length pre)%nat with 0%nat by lia. cbn [skipn draw_row fst map2].
          rewrite !zsum_cons in *. change (zsum []) with 0 in *. lia.
        - rewrite P7 by lia. rewrite <- app_assoc. reflexivity. }
Qed.

(** all rows but the last *)
Lemma row_refine : forall n fuel N rt l J st p, length rt = nrow -> (l + S n = nrow)%nat ->
  jw_rel (r_jwork st) J -> nonneg J -> nonneg (skipn l rt) -> zsum (skipn l rt) = zsum J -> r_jc st = zsum J -> zsum J <= N ->
  length (r_mat st) = (nrow * ncol)%nat -> r_seed st = Z.of_nat p ->
  let tq := draw_table u (skipn l rt) J p in
  exists st', g_row_loop MM n (S fuel) (g_fact_table MM N) rt nrow ncol l st = COk st' /\
    r_seed st' = Z.of_nat (snd tq) /\ length (fst tq) = S n /\ jw_rel (r_jwork st') (nth n (fst tq) []) /\
    length (r_mat st') = (nrow * ncol)%nat /\
    (forall l' k, (l' < l)%nat -> (k < ncol)%nat -> cell nrow (r_mat st') l' k = cell nrow (r_mat st) l' k) /\
    (forall i k, (i < n)%nat -> (k < ncol)%nat -> cell nrow (r_mat st') (l + i) k = nth k (nth i (fst tq) []) 0) /\
    ((0 < n)%nat -> r_ib st' = zsum (skipn (ncol - 2) (nth n (fst tq) []))).
Proof.
  induction n as [|n IH]; intros fuel N rt l J st p Hrt Hl Hjw HnJ Hnr' Hsum Hjc HN HL Hseed tq.
  - assert (Hsk : exists r, skipn l rt = [r]).
    { pose proof (skipn_length l rt) as H. rewrite Hrt in H. replace (nrow - l)%nat with 1%nat in H by lia.
      destruct (skipn l rt) as [|r [|]]; cbn [length] in H; try lia. exists r. reflexivity. }
    destruct Hsk as (r & Hsk). unfold tq. rewrite Hsk. cbn [draw_table fst snd length nth g_row_loop]. exists st.
    split; [reflexivity|]. split; [exact Hseed|]. split; [reflexivity|]. split; [exact Hjw|]. split; [exact HL|]. split; [reflexivity|].
    split; [intros; lia|lia].
  - assert (Hsk : exists r r' rows, skipn l rt = r :: r' :: rows /\ skipn (S l) rt = r' :: rows /\ nth_error rt l = Some r).
    { pose proof (skipn_length l rt) as H. rewrite Hrt in H.
      destruct (skipn l rt) as [|r [|r' rows]] eqn:E; cbn [length] in H; try lia. exists r, r', rows. split; [reflexivity|].
      assert (G : forall (k : nat) (w : list Z) x w', skipn k w = x :: w' -> skipn (S k) w = w' /\ nth_error w k = Some x).
      { clear. induction k as [|k IHk]; intros [|y w] x w' H; cbn [skipn] in H; try discriminate; [injection H as -> ->; split; reflexivity|].
        cbn [skipn nth_error]. destruct w as [|z w]; [destruct k; discriminate H|]. apply IHk in H. exact H. }
      apply G in E. exact E. }
    destruct Hsk as (r & r' & rows & Hsk & Hsk' & Hnth). unfold tq. rewrite Hsk, draw_table_cons. cbv zeta. cbn [fst snd].
    rewrite Hsk in Hnr', Hsum. apply nonneg_cons in Hnr'. destruct Hnr' as [Hr0 Hnr']. pose proof (zsum_nonneg _ Hnr') as Hs0. rewrite (zsum_cons r) in Hsum.
    cbn [g_row_loop]. unfold rd at 1. destruct (Z.ltb_spec (Z.of_nat l) 0); [lia|]. rewrite Nat2Z.id, Hnth. cbn [cbind].
    change (m_chk MM) with (fun z : Z => @COk Z z). cbv beta. cbn [cbind].
    assert (HJl : length J = ncol) by apply Hjw.
    destruct (col_refine (ncol - 1) fuel N l [] J (mkC r (r_jc st) (r_ib st) (r_jwork st) (r_seed st) (r_mat st)) p) as (c & E & P1 & P2 & P3 & P4 & P5 & P6 & P7);
      cbn [c_jwork c_ic c_ia c_mat c_seed length app]; try assumption; try lia.
    cbn [c_ia c_mat length app] in *. rewrite E. cbn [cbind].
    set (x := draw_row u J r p) in *. pose proof (draw_row_length J r p) as HxL. fold x in HxL.
    assert (HJne : J <> []) by (intros ->; cbn [length] in HJl; lia).
    pose proof (draw_row_ok u J r p Hu HJne HnJ ltac:(lia)) as [Hf Hz]. fold x in Hf, Hz.
    rewrite i_midx. cbn [cbind]. rewrite i_wr by (auto; lia). cbn [cbind].
    set (st1 := mkR (r_jc st - r) (c_ib c) (c_jwork c) (c_seed c) (upd (c_mat c) (l + (ncol - 1) * nrow) (c_ia c))).
    assert (HL1 : length (r_mat st1) = (nrow * ncol)%nat) by (unfold st1; cbn [r_mat]; rewrite upd_length; exact P4).
    destruct (IH fuel N rt (S l) (map2 Z.sub J (fst x)) st1 (snd x)) as (st' & E' & Q1 & Q2 & Q3 & Q4 & Q5 & Q6 & Q7).
    { exact Hrt. } { lia. } { exact P3. } { apply sub_nonneg. exact Hf. } { rewrite Hsk'. exact Hnr'. }
    { rewrite Hsk', sub_sum by lia. lia. } { unfold st1; cbn [r_jc]. rewrite sub_sum by lia. lia. } { rewrite sub_sum by lia. lia. } { exact HL1. } { exact P1. }
    rewrite Hsk' in *.
    assert (Hcell : forall l' k, (l' < nrow)%nat -> (k < ncol)%nat -> cell nrow (r_mat st1) l' k =
              if Nat.eqb l' l then nth k (fst x) 0 else cell nrow (r_mat st) l' k).
    { intros l' k Hl' Hk. unfold st1; cbn [r_mat]. rewrite (cell_upd nrow ncol _ l (ncol - 1) l' k _ P4 ltac:(lia) ltac:(lia) Hl').
      destruct (Nat.eqb_spec l' l) as [->|Hne]; cbn [andb].
      - destruct (Nat.eqb_spec k (ncol - 1)) as [->|Hk'].
        + rewrite P2. assert (G : forall w : list Z, last w 0 = nth (length w - 1) w 0).
          { clear. induction w as [|y [|z w] IHw]; [reflexivity|reflexivity|]. change (last (y :: z :: w) 0) with (last (z :: w) 0). rewrite IHw.
            cbn [length]. replace (S (S (length w)) - 1)%nat with (S (S (length w) - 1)) by lia. reflexivity. }
          rewrite G, HxL, HJl. reflexivity.
        + rewrite P6 by lia. rewrite Nat.sub_0_r. reflexivity.
      - apply P5; [exact Hl'|exact Hk|]. intros [? _]. contradiction. }
    exists st'. split; [exact E'|]. split; [exact Q1|]. split; [cbn [length]; rewrite Q2; reflexivity|]. cbn [nth].
    split; [exact Q3|]. split; [exact Q4|]. split; [|split].
    { intros l' k Hl' Hk. rewrite Q5 by lia. rewrite Hcell by lia. destruct (Nat.eqb_spec l' l); [lia|reflexivity]. }
    { intros i k Hi Hk. destruct i as [|i].
      - rewrite Nat.add_0_r. rewrite Q5 by lia. rewrite Hcell by lia. rewrite Nat.eqb_refl. reflexivity.
      - replace (l + S i)%nat with (S l + i)%nat by lia. rewrite Q6 by lia. reflexivity. }
    { intros _. destruct n as [|n].
      - cbn [g_row_loop] in E'. injection E' as <-. unfold st1; cbn [r_ib]. rewrite P7 by lia.
        destruct rows as [|]; [reflexivity|]. exfalso. pose proof (skipn_length (S l) rt) as G. rewrite Hsk' in G. cbn [length] in G. lia.
      - rewrite Q7 by lia. reflexivity. }
Qed.

Lemma last_refine : forall n j jw Jf mat, (j + n = ncol - 1)%nat -> jw_rel jw Jf -> length mat = (nrow * ncol)%nat ->
  exists mt, g_last_row MM n nrow j jw mat = COk mt /\ length mt = (nrow * ncol)%nat /\
    forall l' k, (l' < nrow)%nat -> (k < ncol)%nat -> cell nrow mt l' k =
      if (Nat.eqb l' (nrow - 1) && (j <=? k)%nat && (k <? ncol - 1)%nat)%bool then nth k Jf 0 else cell nrow mat l' k.
Proof.
  induction n as [|n IH]; intros j jw Jf mat Hj Hjw HL; cbn [g_last_row].
  - exists mat. split; [reflexivity|]. split; [exact HL|]. intros l' k Hl' Hk.
    destruct (Nat.leb_spec j k), (Nat.ltb_spec k (ncol - 1)); try lia; rewrite ?andb_false_r; reflexivity.
  - rewrite i_midx. cbn [cbind]. rewrite (rd_jw _ _ _ Hjw) by lia. cbn [cbind]. rewrite i_wr by (auto; lia). cbn [cbind].
    destruct (IH (S j) jw Jf (upd mat (nrow - 1 + j * nrow) (nth j Jf 0))) as (mt & E & HL' & Hc); [lia|exact Hjw|rewrite upd_length; exact HL|].
    exists mt. split; [exact E|]. split; [exact HL'|]. intros l' k Hl' Hk. rewrite Hc by assumption.
    rewrite (cell_upd nrow ncol mat (nrow - 1) j l' k _ HL ltac:(lia) ltac:(lia) Hl').
    destruct (Nat.eqb_spec l' (nrow - 1)); cbn [andb]; [|reflexivity].
    destruct (Nat.leb_spec (S j) k), (Nat.leb_spec j k), (Nat.eqb_spec k j), (Nat.ltb_spec k (ncol - 1)); try lia; try reflexivity. subst k. reflexivity.
Qed.

Lemma i_sum : forall l, g_i4vec_sum MM l = COk (zsum l).
Proof.
  intros l. unfold g_i4vec_sum. assert (H : forall l acc, g_i4vec_sum_from MM acc l = COk (acc + zsum l)).
  { clear. induction l as [|x l IH]; intros acc; cbn [g_i4vec_sum_from]; [change (zsum []) with 0; f_equal; lia|].
    change (m_chk MM) with (fun z : Z => @COk Z z). cbv beta. cbn [cbind]. rewrite IH, zsum_cons. f_equal. lia. }
  rewrite H. reflexivity.
Qed.

Theorem rcont2_refine : forall fuel ib0 rt ct buf, valid_totals nrow ncol rt ct -> length buf = (nrow * ncol)%nat ->
  exists M, g_rcont2 MM (S fuel) ib0 nrow ncol rt ct 0 buf = COk (M, Z.of_nat (snd (draw_table u rt ct 0))) /\
    holds nrow ncol M (fst (draw_table u rt ct 0)).
Proof.
  intros fuel ib0 rt ct buf (_ & _ & Hrl & Hcl & Hr & Hc & Hs) HL. unfold g_rcont2.
  destruct (Nat.leb_spec nrow 1); [lia|]. destruct (Nat.leb_spec ncol 1); [lia|].
  assert (Hex : forall w, (forall x, In x w -> 0 < x) -> existsb (fun t => t <=? 0) w = false).
  { clear. induction w as [|x w IHw]; intros H; [reflexivity|]. cbn [existsb]. rewrite IHw by (intros; apply H; right; assumption).
    pose proof (H x (or_introl eq_refl)). destruct (Z.leb_spec x 0); [lia|reflexivity]. }
  rewrite !Hex by assumption. rewrite !i_sum. cbn [cbind]. rewrite Hs, Z.eqb_refl. cbn [negb].
  change (m_chk MM) with (fun z : Z => @COk Z z). cbv beta. cbn [cbind].
  set (st0 := mkR (zsum ct) ib0 (firstn (ncol - 1) ct) 0 buf).
  destruct (row_refine (nrow - 1) fuel (zsum ct) rt 0 ct st0 0) as (st & E & P1 & P2 & P3 & P4 & P5 & P6 & P7);
    unfold st0; cbn [r_jwork r_jc r_mat r_seed skipn]; try assumption; try lia; try reflexivity.
  { split; [rewrite firstn_length; lia|]. split; [exact Hcl|]. intros k Hk. clear - Hk. revert ct k Hk. induction (ncol - 1)%nat as [|n IHn]; intros ct k Hk; [lia|].
    destruct ct as [|c ct]; [destruct k; reflexivity|]. cbn [firstn]. destruct k as [|k]; [reflexivity|]. cbn [nth]. apply IHn. lia. }
  { apply nonneg_pos. exact Hc. } { apply nonneg_pos. exact Hr. }
  cbn [skipn] in *. fold st0. rewrite E. cbn [cbind]. set (T := fst (draw_table u rt ct 0)) in *.
  destruct (last_refine (ncol - 1) 0 (r_jwork st) (nth (nrow - 1) T []) (r_mat st)) as (mt & E2 & HL2 & Hc2); [lia|exact P3|exact P4|].
  rewrite E2. cbn [cbind]. rewrite i_midx. cbn [cbind].
  assert (Hv : rd mt (Z.of_nat (nrow - 1 + (ncol - 2) * nrow)) = COk (nth (ncol - 2) (nth (nrow - 1) T []) 0)).
  { pose proof (Hc2 (nrow - 1)%nat (ncol - 2)%nat ltac:(lia) ltac:(lia)) as H1. rewrite Nat.eqb_refl in H1.
    destruct (Nat.leb_spec 0 (ncol - 2)), (Nat.ltb_spec (ncol - 2) (ncol - 1)); try lia. cbn [andb] in H1. unfold cell in H1.
    pose proof (idx_lt nrow ncol (nrow - 1) (ncol - 2) ltac:(lia) ltac:(lia)).
    unfold rd. destruct (Z.ltb_spec (Z.of_nat (nrow - 1 + (ncol - 2) * nrow)) 0); [lia|]. rewrite Nat2Z.id.
    rewrite (nth_error_nth' mt 0) by lia. rewrite H1. reflexivity. }
  rewrite Hv. cbn [cbind]. rewrite i_midx. cbn [cbind]. rewrite i_wr by (auto; lia). cbn [cbind].
  eexists. split; [rewrite P1; reflexivity|]. split; [rewrite upd_length; exact HL2|].
  intros l m Hl Hm. fold (cell nrow (upd mt (nrow - 1 + (ncol - 1) * nrow) (r_ib st - nth (ncol - 2) (nth (nrow - 1) T []) 0)) l m).
  rewrite (cell_upd nrow ncol mt (nrow - 1) (ncol - 1) l m _ HL2 ltac:(lia) ltac:(lia) Hl). rewrite Hc2 by assumption.
  destruct (Nat.eqb_spec l (nrow - 1)) as [->|Hne]; cbn [andb].
  - destruct (Nat.eqb_spec m (ncol - 1)) as [->|Hm'].
    + rewrite P7 by lia. set (w := nth (nrow - 1) T []) in *. assert (Hw : length w = ncol) by apply P3.
      assert (G : forall (w : list Z) n, length w = (n + 2)%nat -> zsum (skipn n w) = nth n w 0 + nth (n + 1) w 0).
      { clear. induction w as [|x w IHw]; intros n H; cbn [length] in H; [lia|]. destruct n as [|n].
        - destruct w as [|y [|]]; cbn [length] in H; try lia. cbn [skipn nth plus]. rewrite !zsum_cons. change (zsum []) with 0. lia.
        - cbn [skipn plus nth]. apply IHw. lia. }
      rewrite G by lia. replace (ncol - 2 + 1)%nat with (ncol - 1)%nat by lia. lia.
    + destruct (Nat.leb_spec 0 m), (Nat.ltb_spec m (ncol - 1)); try lia. reflexivity.
  - exact (P6 l m ltac:(lia) Hm).
Qed.
End Refine.
