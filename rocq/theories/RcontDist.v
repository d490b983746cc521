(** Distribution of the tables drawn row by row, cell by cell, with the cells of [RcontCell]. *)
From Coq Require Import ZArith List Reals Lia Lra Arith Bool.
Import ListNotations.
From Verif Require Import SpecRcont SpecTableDist RSum HyperProofs RcontCell.
Open Scope Z_scope.

Fixpoint map2 {A B C} (f : A -> B -> C) (l : list A) (l' : list B) : list C :=
  match l, l' with a :: l1, b :: l2 => f a b :: map2 f l1 l2 | _, _ => [] end.

Lemma zsum_cons : forall x l, zsum (x :: l) = x + zsum l. Proof. reflexivity. Qed.
Lemma zsum_nonneg : forall l, (forall x, In x l -> 0 <= x) -> 0 <= zsum l.
Proof.
  induction l as [|x l IH]; intros H; [reflexivity|]. rewrite zsum_cons.
  pose proof (H x (or_introl eq_refl)). pose proof (IH (fun y Hy => H y (or_intror Hy))). lia.
Qed.

Section Draw.
Variable u : nat -> R.

Fixpoint draw_row (J : list Z) (a : Z) (p : nat) : list Z * nat :=
  match J with
  | [] => ([], p)
  | [_] => ([a], p)
  | d :: J' =>
      if zsum J =? 0 then (map (fun _ => 0) J, p)
      else let n := cell_value a d (zsum J) (u p) in
           let rq := draw_row J' (a - n) (S p) in (n :: fst rq, snd rq)
  end.

Fixpoint draw_table (rows J : list Z) (p : nat) : list (list Z) * nat :=
  match rows with
  | [] => ([], p)
  | [_] => ([J], p)
  | r :: rows' =>
      let x := draw_row J r p in
      let t := draw_table rows' (map2 Z.sub J (fst x)) (snd x) in (fst x :: fst t, snd t)
  end.

Lemma draw_row_cons : forall d d' J a p, draw_row (d :: d' :: J) a p =
  if zsum (d :: d' :: J) =? 0 then (map (fun _ => 0) (d :: d' :: J), p)
  else let n := cell_value a d (zsum (d :: d' :: J)) (u p) in
       let rq := draw_row (d' :: J) (a - n) (S p) in (n :: fst rq, snd rq).
Proof. reflexivity. Qed.
Lemma draw_table_cons : forall r r' rows J p, draw_table (r :: r' :: rows) J p =
  let x := draw_row J r p in
  let t := draw_table (r' :: rows) (map2 Z.sub J (fst x)) (snd x) in (fst x :: fst t, snd t).
Proof. reflexivity. Qed.
End Draw.

(** [x] is a possible row: between 0 and the remaining column totals, adding up to [a] *)
Definition row_ok (J : list Z) (a : Z) (x : list Z) : Prop := Forall2 (fun d n => 0 <= n <= d) J x /\ zsum x = a.

Definition nonneg (J : list Z) : Prop := forall d, In d J -> 0 <= d.

Lemma nonneg_cons : forall d J, nonneg (d :: J) <-> 0 <= d /\ nonneg J.
Proof.
  unfold nonneg. intros d J. split; [intros H; split; [apply H; left; reflexivity|intros; apply H; right; assumption]|].
  intros [H1 H2] x [<-|Hx]; auto.
Qed.

Lemma row_zero : forall J x, nonneg J -> zsum J = 0 -> Forall2 (fun d n => 0 <= n <= d) J x -> x = map (fun _ => 0) J /\ (forall d, In d J -> d = 0).
Proof.
  induction J as [|d J IH]; intros x Hn Hz H; inversion H; subst; [split; [reflexivity|intros d []]|].
  apply nonneg_cons in Hn. destruct Hn as [Hd Hn]. rewrite zsum_cons in Hz. pose proof (zsum_nonneg J Hn).
  destruct (IH l' Hn ltac:(lia) ltac:(assumption)) as [-> Hall]. cbn [map]. split; [f_equal; lia|].
  intros w [<-|Hy]; [lia|auto].
Qed.

Lemma draw_row_ok : forall u J a p, (forall k, (0 < u k <= 1)%R) -> J <> [] -> nonneg J -> 0 <= a <= zsum J ->
  row_ok J a (fst (draw_row u J a p)).
Proof.
  intros u. induction J as [|d J IH]; intros a p Hu HJ Hn Ha; [contradiction|].
  destruct J as [|d' J].
  - cbn [draw_row fst]. rewrite zsum_cons in Ha. change (zsum []) with 0 in Ha. split; [constructor; [lia|constructor]|]. rewrite zsum_cons. change (zsum []) with 0. lia.
  - rewrite draw_row_cons. destruct (Z.eqb_spec (zsum (d :: d' :: J)) 0) as [Hz|Hz].
    + cbn [fst]. split.
      * clear - Hn. induction (d :: d' :: J) as [|x l IHl]; cbn [map]; constructor.
        { apply nonneg_cons in Hn. lia. } { apply IHl. apply nonneg_cons in Hn. apply Hn. }
      * assert (Hm : forall l : list Z, zsum (map (fun _ => 0) l) = 0) by (induction l as [|x l IHl]; [reflexivity|cbn [map]; rewrite zsum_cons; lia]).
        rewrite Hm. lia.
    + apply nonneg_cons in Hn. destruct Hn as [Hd Hn]. set (e := zsum (d :: d' :: J)) in *.
      assert (He : e = d + zsum (d' :: J)) by reflexivity. pose proof (zsum_nonneg (d' :: J) Hn) as Hs.
      pose proof (cell_range a d e ltac:(lia) ltac:(lia) (u p) ltac:(lia) (Hu p)) as Hc. set (n := cell_value a d e (u p)) in *.
      unfold hlo, hhi in Hc. cbv zeta. cbn [fst].
      destruct (IH (a - n) (S p) Hu ltac:(discriminate) Hn ltac:(lia)) as [H1 H2].
      split; [constructor; [lia|exact H1]|]. rewrite zsum_cons, H2. lia.
Qed.

Lemma in_box_nil : forall u p, in_box u p []. Proof. intros u p k Hk. inversion Hk. Qed.
Lemma in_box_cons : forall u p i I, in_box u p (i :: I) <-> (fst i < u p <= snd i)%R /\ in_box u (S p) I.
Proof.
  intros u p i I. unfold in_box. split.
  - intros H. split; [specialize (H 0%nat); cbn [nth length] in H; rewrite Nat.add_0_r in H; apply H; lia|].
    intros k Hk. specialize (H (S k)). cbn [nth length] in H. replace (S p + k)%nat with (p + S k)%nat by lia. apply H. lia.
  - intros [H1 H2] [|k] Hk; cbn [nth]; [rewrite Nat.add_0_r; exact H1|]. cbn [length] in Hk.
    replace (p + S k)%nat with (S p + k)%nat by lia. apply H2. lia.
Qed.
Lemma in_box_app : forall u I I' p, in_box u p (I ++ I') <-> in_box u p I /\ in_box u (p + length I) I'.
Proof.
  intros u. induction I as [|i I IH]; intros I' p; cbn [app length].
  - rewrite Nat.add_0_r. split; [intros H; split; [apply in_box_nil|exact H]|intros [_ H]; exact H].
  - rewrite !in_box_cons, IH. replace (S p + length I)%nat with (p + S (length I))%nat by lia. tauto.
Qed.
Lemma volume_cons : forall i I, volume (i :: I) = ((snd i - fst i) * volume I)%R. Proof. reflexivity. Qed.
Lemma volume_app : forall I I', volume (I ++ I') = (volume I * volume I')%R.
Proof. induction I as [|i I IH]; intros I'; cbn [app]; [unfold volume at 2; simpl; ring|]. rewrite !volume_cons, IH. ring. Qed.
Lemma unit_cons : forall i I, unit_intervals (i :: I) <-> (0 <= fst i /\ fst i < snd i /\ snd i <= 1)%R /\ unit_intervals I.
Proof.
  unfold unit_intervals. intros i I. split; [intros H; split; [apply H; left; reflexivity|intros; apply H; right; assumption]|].
  intros [H1 H2] p [<-|Hp]; auto.
Qed.
Lemma unit_app : forall I I', unit_intervals I -> unit_intervals I' -> unit_intervals (I ++ I').
Proof. intros I I' H H' p Hp. apply in_app_or in Hp. destruct Hp; auto. Qed.

Definition rowprob (J x : list Z) : R := rprod (map2 zbin J x).

Lemma zbin_0 : forall n, zbin n 0 = 1%R.
Proof. intros n. unfold zbin. rewrite Z.sub_0_r. unfold zfact at 2. simpl. field. apply Rgt_not_eq, zfact_pos. Qed.
Lemma rprod_cons : forall x l, rprod (x :: l) = (x * rprod l)%R. Proof. reflexivity. Qed.

(** every possible row has its own box of variates *)
Lemma row_dist : forall J a x, J <> [] -> nonneg J -> 0 <= a <= zsum J -> row_ok J a x ->
  exists I, unit_intervals I /\ volume I = (rowprob J x / zbin (zsum J) a)%R /\
    forall u p, (forall k, (0 < u k <= 1)%R) ->
      (fst (draw_row u J a p) = x <-> in_box u p I) /\ (in_box u p I -> snd (draw_row u J a p) = (p + length I)%nat).
Proof.
  induction J as [|d J IH]; intros a x HJ Hn Ha [H2 Hs]; [contradiction|].
  inversion H2 as [|? n ? x' Hdn H2']; subst. destruct J as [|d' J].
  - inversion H2'; subst. exists []. split; [intros p []|]. split.
    + unfold rowprob, volume. cbn [map2 map]. rewrite !zsum_cons. change (zsum []) with 0. rewrite !Z.add_0_r. simpl. field.
      apply Rgt_not_eq, zbin_pos.
    + intros u p Hu. cbn [draw_row fst snd length]. rewrite zsum_cons. change (zsum []) with 0. rewrite Z.add_0_r.
      split; [split; [intros; apply in_box_nil|reflexivity]|intros; lia].
  - destruct (Z.eq_dec (zsum (d :: d' :: J)) 0) as [Hz|Hz].
    + destruct (row_zero _ _ Hn Hz H2) as [Hx Hall]. rewrite Hx. exists []. split; [intros p []|]. split.
      * assert (Hm : forall l : list Z, zsum (map (fun _ => 0) l) = 0) by (induction l as [|y l IHl]; [reflexivity|cbn [map]; rewrite zsum_cons; lia]).
        rewrite Hm, zbin_0. assert (Hp : forall l, rowprob l (map (fun _ => 0) l) = 1%R).
        { induction l as [|y l IHl]; [reflexivity|]. unfold rowprob in *. cbn [map map2]. rewrite rprod_cons, IHl, zbin_0. ring. }
        rewrite Hp. unfold volume. simpl. field.
      * intros u p Hu. rewrite draw_row_cons, Hz. cbn [Z.eqb fst snd length]. split; [split; [intros; apply in_box_nil|reflexivity]|intros; lia].
    + pose proof Hn as Hn0. apply nonneg_cons in Hn. destruct Hn as [Hd Hn]. set (e := zsum (d :: d' :: J)) in *.
      assert (He : e = d + zsum (d' :: J)) by reflexivity. pose proof (zsum_nonneg (d' :: J) Hn) as Hs'.
      rewrite (zsum_cons n x') in *. set (s := zsum x') in *.
      assert (Hle : s <= zsum (d' :: J)).
      { unfold s. clear - H2'. induction H2' as [|? ? ? ? Hh Ht IHt]; [reflexivity|]. rewrite !zsum_cons. lia. }
      assert (Hs0 : 0 <= s).
      { unfold s. clear - H2'. induction H2' as [|? ? ? ? Hh Ht IHt]; [reflexivity|]. rewrite !zsum_cons. lia. }
      destruct (cell_interval (n + s) d e ltac:(lia) ltac:(lia) n ltac:(lia) ltac:(unfold hlo, hhi; lia)) as (lo & hi & B1 & B2 & B3 & B4 & B5).
      destruct (IH s x' ltac:(discriminate) Hn ltac:(lia) (conj H2' eq_refl)) as (I & I1 & I2 & I3).
      exists ((lo, hi) :: I). split; [apply unit_cons; split; [cbn [fst snd]; lra|exact I1]|]. split.
      * rewrite volume_cons. cbn [fst snd]. rewrite B4, I2, hyper_bin.
        replace (e - d) with (zsum (d' :: J)) by lia. replace (n + s - n) with s by lia.
        unfold rowprob. cbn [map2]. rewrite (rprod_cons (zbin d n)).
        pose proof (zbin_pos e (n + s)). pose proof (zbin_pos (zsum (d' :: J)) s). field. split; lra.
      * intros u p Hu. rewrite draw_row_cons. fold e. destruct (Z.eqb_spec e 0); [contradiction|]. cbv zeta. cbn [fst snd].
        rewrite in_box_cons. cbn [fst snd]. rewrite <- (B5 (u p) (Hu p)). set (c := cell_value (n + s) d e (u p)).
        split.
        { split.
          - intros E. injection E as E1 E2. split; [exact E1|]. rewrite E1 in E2. replace (n + s - n) with s in E2 by lia.
            apply (I3 u (S p) Hu). exact E2.
          - intros [E1 E2]. rewrite E1. replace (n + s - n) with s by lia. f_equal. apply (I3 u (S p) Hu). exact E2. }
        { intros [E1 E2]. rewrite E1. replace (n + s - n) with s by lia. rewrite (proj2 (I3 u (S p) Hu) E2). cbn [length]. lia. }
Qed.

(** possible tables, row by row *)
Fixpoint tab_ok (rows J : list Z) (T : list (list Z)) : Prop :=
  match rows with
  | [] => False
  | [r] => T = [J] /\ zsum J = r
  | r :: rows' => match T with [] => False | x :: T' => row_ok J r x /\ tab_ok rows' (map2 Z.sub J x) T' end
  end.
Lemma tab_ok_cons : forall r r' rows J T, tab_ok (r :: r' :: rows) J T =
  match T with [] => False | x :: T' => row_ok J r x /\ tab_ok (r' :: rows) (map2 Z.sub J x) T' end.
Proof. reflexivity. Qed.

Lemma sub_nonneg : forall J x, Forall2 (fun d n => 0 <= n <= d) J x -> nonneg (map2 Z.sub J x).
Proof. intros J x H. induction H as [|d n J x Hh Ht IH]; cbn [map2]; [intros ? []|]. apply nonneg_cons. split; [lia|exact IH]. Qed.
Lemma sub_sum : forall J x, length J = length x -> zsum (map2 Z.sub J x) = zsum J - zsum x.
Proof. induction J as [|d J IH]; intros [|n x] H; cbn [length] in H; try discriminate; [reflexivity|]. cbn [map2]. rewrite !zsum_cons, IH by lia. lia. Qed.
Lemma map2_length : forall A B C (f : A -> B -> C) l l', length l = length l' -> length (map2 f l l') = length l.
Proof. intros A B C f. induction l as [|a l IH]; intros [|b l'] H; cbn [length] in H; try discriminate; [reflexivity|]. cbn [map2 length]. rewrite IH by lia. reflexivity. Qed.
Lemma F2_length : forall A B (R : A -> B -> Prop) l l', Forall2 R l l' -> length l = length l'.
Proof. intros A B R l l' H. induction H; cbn [length]; auto. Qed.
Lemma nonneg_pos : forall l, (forall x, In x l -> 0 < x) -> nonneg l.
Proof. intros l H x Hx. apply H in Hx. lia. Qed.

Lemma draw_table_ok : forall u rows J p, (forall k, (0 < u k <= 1)%R) -> rows <> [] -> J <> [] -> nonneg rows -> nonneg J -> zsum rows = zsum J ->
  tab_ok rows J (fst (draw_table u rows J p)).
Proof.
  intros u. induction rows as [|r rows IH]; intros J p Hu Hr HJ Hnr HnJ Hs; [contradiction|].
  destruct rows as [|r' rows].
  - cbn [draw_table fst tab_ok]. split; [reflexivity|]. rewrite <- Hs. rewrite zsum_cons. change (zsum []) with 0. lia.
  - rewrite draw_table_cons, tab_ok_cons. cbv zeta. cbn [fst].
    apply nonneg_cons in Hnr. destruct Hnr as [H0 Hnr]. pose proof (zsum_nonneg _ Hnr). rewrite zsum_cons in Hs.
    pose proof (draw_row_ok u J r p Hu HJ HnJ ltac:(lia)) as Hok. split; [exact Hok|]. destruct Hok as [Hf Hz].
    pose proof (F2_length _ _ _ _ _ Hf) as HL. apply IH; auto; [discriminate| |apply sub_nonneg; exact Hf|rewrite sub_sum by exact HL; lia].
    destruct J as [|d J]; [contradiction|]. destruct (fst (draw_row u (d :: J) r p)); [discriminate HL|discriminate].
Qed.

Lemma rowprob_fact : forall J x, Forall2 (fun d n => 0 <= n <= d) J x ->
  rowprob J x = (factorials J / (factorials x * factorials (map2 Z.sub J x)))%R.
Proof.
  intros J x H. induction H as [|d n J x Hh Ht IH].
  - unfold rowprob, factorials. simpl. field.
  - unfold rowprob, factorials in *. cbn [map2 map]. rewrite !rprod_cons, IH. unfold zbin.
    assert (Hp : forall l, (0 < rprod (map zfact l))%R).
    { induction l as [|y l IHl]; [simpl; lra|]. cbn [map]. rewrite rprod_cons. apply Rmult_lt_0_compat; [apply zfact_pos|exact IHl]. }
    pose proof (Hp x). pose proof (Hp (map2 Z.sub J x)). pose proof (zfact_pos n). pose proof (zfact_pos (d - n)).
    field. repeat split; lra.
Qed.
Lemma factorials_pos : forall l, (0 < factorials l)%R.
Proof. unfold factorials. induction l as [|y l IHl]; [simpl; lra|]. cbn [map]. rewrite rprod_cons. apply Rmult_lt_0_compat; [apply zfact_pos|exact IHl]. Qed.
Lemma factorials_cons : forall x l, factorials (x :: l) = (zfact x * factorials l)%R. Proof. reflexivity. Qed.
Lemma factorials_app : forall l l', factorials (l ++ l') = (factorials l * factorials l')%R.
Proof. induction l as [|x l IH]; intros l'; cbn [app]; [unfold factorials at 2; simpl; ring|]. rewrite !factorials_cons, IH. ring. Qed.

(** every possible table has its own box of variates, as large as the table is likely *)
Lemma table_dist : forall rows J T, rows <> [] -> J <> [] -> nonneg rows -> nonneg J -> zsum rows = zsum J -> tab_ok rows J T ->
  exists I, unit_intervals I /\ volume I = fisher rows J T /\
    forall u p, (forall k, (0 < u k <= 1)%R) ->
      (fst (draw_table u rows J p) = T <-> in_box u p I) /\ (in_box u p I -> snd (draw_table u rows J p) = (p + length I)%nat).
Proof.
  induction rows as [|r rows IH]; intros J T Hr HJ Hnr HnJ Hs HT; [contradiction|].
  destruct rows as [|r' rows].
  - cbn [tab_ok] in HT. destruct HT as [-> Hz]. exists []. split; [intros p []|]. split.
    + unfold fisher, volume. cbn [map concat app]. rewrite app_nil_r, factorials_cons, zsum_cons. change (zsum []) with 0. rewrite Z.add_0_r.
      unfold factorials at 1. simpl. pose proof (zfact_pos r). pose proof (factorials_pos J). field. split; lra.
    + intros u p Hu. cbn [draw_table fst snd length]. split; [split; [intros; apply in_box_nil|reflexivity]|intros; lia].
  - rewrite tab_ok_cons in HT. destruct T as [|x T]; [contradiction|]. destruct HT as [[Hf Hz] HT].
    apply nonneg_cons in Hnr. destruct Hnr as [H0 Hnr]. pose proof (zsum_nonneg _ Hnr) as Hs0. rewrite zsum_cons in Hs.
    pose proof (F2_length _ _ _ _ _ Hf) as HL.
    destruct (row_dist J r x HJ HnJ ltac:(lia) (conj Hf Hz)) as (I & I1 & I2 & I3).
    destruct (IH (map2 Z.sub J x) T) as (I' & I1' & I2' & I3'); auto.
    { discriminate. } { destruct J as [|d J]; [contradiction|]. destruct x; [discriminate HL|discriminate]. } { apply sub_nonneg; exact Hf. } { rewrite sub_sum by exact HL. lia. }
    exists (I ++ I'). split; [apply unit_app; assumption|]. split.
    + rewrite volume_app, I2, I2', rowprob_fact by exact Hf. unfold fisher. cbn [concat]. rewrite factorials_app, (factorials_cons r).
      rewrite (zsum_cons r). unfold zbin. replace (zsum J - r) with (zsum (r' :: rows)) by lia. replace (r + zsum (r' :: rows)) with (zsum J) by lia.
      pose proof (factorials_pos J). pose proof (factorials_pos x). pose proof (factorials_pos (map2 Z.sub J x)). pose proof (factorials_pos (concat T)).
      pose proof (zfact_pos (zsum J)). pose proof (zfact_pos r). pose proof (zfact_pos (zsum (r' :: rows))). field. repeat split; lra.
    + intros u p Hu. rewrite draw_table_cons. cbv zeta. cbn [fst snd]. rewrite in_box_app. destruct (I3 u p Hu) as [A1 A2].
      split.
      * split.
        { intros E. injection E as E1 E2. rewrite E1 in E2. pose proof (proj1 A1 E1) as B. split; [exact B|]. rewrite (A2 B) in E2.
          apply (I3' u _ Hu). exact E2. }
        { intros [B1 B2]. rewrite (proj2 A1 B1), (A2 B1). f_equal. apply (I3' u _ Hu). exact B2. }
      * intros [B1 B2]. rewrite (proj2 A1 B1), (A2 B1). rewrite (proj2 (I3' u _ Hu) B2), app_length. lia.
Qed.

(** [tab_ok] is [table_with] *)
Lemma tab_ok_spec : forall rows J T, rows <> [] -> nonneg J -> zsum rows = zsum J -> (tab_ok rows J T <-> table_with rows J T).
Proof.
  induction rows as [|r rows IH]; intros J T Hr HnJ Hs; [contradiction|]. destruct rows as [|r' rows].
  - cbn [tab_ok]. rewrite zsum_cons in Hs. change (zsum []) with 0 in Hs. unfold table_with. split.
    + intros [-> Hz]. split; [reflexivity|]. split; [intros row [<-|[]]; split; [reflexivity|exact HnJ]|]. split; [cbn [map]; congruence|].
      intros m Hm. cbn [map]. rewrite zsum_cons. change (zsum []) with 0. lia.
    + intros (HL & Hrow & Hsum & Hcol). destruct T as [|x [|]]; cbn [length] in HL; try discriminate. split; [|lia]. f_equal.
      destruct (Hrow x (or_introl eq_refl)) as [HL' _]. apply (nth_ext _ _ 0 0); [exact HL'|]. intros m Hm. rewrite HL' in Hm.
      specialize (Hcol m Hm). cbn [map] in Hcol. rewrite zsum_cons in Hcol. change (zsum []) with 0 in Hcol. lia.
  - rewrite tab_ok_cons. rewrite zsum_cons in Hs.
    assert (Hnth : forall J x m, length J = length x -> nth m (map2 Z.sub J x) 0 = nth m J 0 - nth m x 0).
    { clear. induction J as [|d J IHJ]; intros [|n x] m H; cbn [length] in H; try discriminate; [destruct m; reflexivity|].
      cbn [map2]. destruct m; cbn [nth]; [reflexivity|]. apply IHJ. lia. }
    split.
    + intros H. destruct T as [|x T]; [contradiction|]. destruct H as [[Hf Hz] H]. pose proof (F2_length _ _ _ _ _ Hf) as HL.
      apply IH in H; [|discriminate|apply sub_nonneg; exact Hf|rewrite sub_sum by exact HL; lia].
      destruct H as (K1 & K2 & K3 & K4). rewrite map2_length in * by exact HL.
      split; [cbn [length] in *; lia|]. split.
      { intros row [<-|Hrow]; [|apply K2 in Hrow; exact Hrow]. split; [lia|]. clear - Hf. induction Hf; [intros ? []|]. intros y' [<-|Hy]; [lia|auto]. }
      split; [cbn [map] in *; congruence|]. intros m Hm. cbn [map]. rewrite zsum_cons, (K4 m Hm), Hnth by exact HL. lia.
    + intros (K1 & K2 & K3 & K4). destruct T as [|x T]; [discriminate K1|].
      destruct (K2 x (or_introl eq_refl)) as [HL Hx]. cbn [map] in K3. injection K3 as Hz K3.
      assert (Hrest : forall m, (m < length J)%nat -> 0 <= zsum (map (fun row => nth m row 0) T)).
      { intros m Hm. apply zsum_nonneg. intros v Hv. apply in_map_iff in Hv. destruct Hv as (row & <- & Hrow).
        destruct (K2 row (or_intror Hrow)) as [HL' Hpos]. apply Hpos. apply nth_In. lia. }
      assert (Hf : Forall2 (fun d n => 0 <= n <= d) J x).
      { assert (Hf' : forall m, (m < length J)%nat -> 0 <= nth m x 0 <= nth m J 0).
        { intros m Hm. specialize (K4 m Hm). specialize (Hrest m Hm). cbn [map] in K4. rewrite zsum_cons in K4.
          split; [apply Hx; apply nth_In; lia|lia]. }
        clear - HL Hf'. revert x HL Hf'. induction J as [|d J IHJ]; intros [|n x] HL Hf'; cbn [length] in HL; try discriminate; [constructor|].
        constructor; [exact (Hf' 0%nat ltac:(cbn [length]; lia))|]. apply IHJ; [lia|]. intros m Hm. exact (Hf' (S m) ltac:(cbn [length]; lia)). }
      split; [split; [exact Hf|exact Hz]|]. apply IH; [discriminate|apply sub_nonneg; exact Hf|rewrite sub_sum by lia; lia|].
      unfold table_with. rewrite map2_length by lia. split; [cbn [length] in *; lia|]. split; [intros row Hrow; apply K2; right; exact Hrow|].
      split; [exact K3|]. intros m Hm. specialize (K4 m Hm). cbn [map] in K4. rewrite zsum_cons in K4. rewrite Hnth by lia. lia.
Qed.
