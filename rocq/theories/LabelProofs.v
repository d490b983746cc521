(** Lemmas for the label model. *)
From Coq Require Import String ZArith List Bool Reals Lia.
From Verif Require Import F64 Base Cells BinModel HistModel RSum StatsModel BivModel Num PhikModel LabelModel.
Import ListNotations.
Open Scope list_scope.

Lemma label_eqb_spec : forall a b, reflect (a = b) (label_eqb a b).
Proof.
  intros [x|x] [y|y]; simpl.
  - destruct (Z.eqb_spec x y); constructor; congruence.
  - constructor. discriminate.
  - constructor. discriminate.
  - destruct (String.eqb_spec x y); constructor; congruence.
Qed.
Lemma label_eqb_refl : forall a, label_eqb a a = true.
Proof. intros a. destruct (label_eqb_spec a a); congruence. Qed.
Lemma label_eqb_false : forall a b, a <> b -> label_eqb a b = false.
Proof. intros a b H. destruct (label_eqb_spec a b); congruence. Qed.
Lemma label_dec : forall a b : label, {a = b} + {a <> b}.
Proof. intros a b. destruct (label_eqb_spec a b); [left|right]; assumption. Qed.
Lemma lmem_In : forall a l, lmem a l = true <-> In a l.
Proof.
  intros a l. unfold lmem. rewrite existsb_exists. split.
  - intros (x & H & E). destruct (label_eqb_spec a x); congruence.
  - intros H. exists a. split; [exact H|apply label_eqb_refl].
Qed.
Lemma lmem_false : forall a l, lmem a l = false <-> ~ In a l.
Proof. intros a l. rewrite <- lmem_In. destruct (lmem a l); split; congruence. Qed.

Lemma distinct_In : forall a l, In a (distinct l) <-> In a l.
Proof.
  intros a l. induction l as [|b l IH]; [reflexivity|]. simpl. rewrite filter_In, IH. split.
  - intros [H|[H _]]; [left|right]; assumption.
  - intros [H|H]; [left; exact H|]. destruct (label_dec b a) as [E|E]; [left; exact E|right]. split; [exact H|]. rewrite label_eqb_false by exact E. reflexivity.
Qed.
Lemma linsert_In : forall a b l, In a (linsert b l) <-> a = b \/ In a l.
Proof.
  intros a b l. induction l as [|c l IH]; simpl; [intuition congruence|]. destruct (lless c b); simpl; [rewrite IH|]; intuition congruence.
Qed.
Lemma lsorted_spec : forall l,
  (lsorted l = Raise TypeError /\ (exists z, In (LInt z) l) /\ (exists s, In (LStr s) l)) \/
  (exists k, lsorted l = Ok k /\ (forall a, In a k <-> In a l) /\ ((exists z, In (LInt z) l) -> (exists s, In (LStr s) l) -> False)).
Proof.
  intros l. unfold lsorted.
  assert (EI : existsb is_lint l = true <-> exists z, In (LInt z) l).
  { rewrite existsb_exists. split; [intros ([z|s] & H & E); [exists z; exact H|discriminate]|intros (z & H); exists (LInt z); split; [exact H|reflexivity]]. }
  assert (ES : existsb is_lstr l = true <-> exists s, In (LStr s) l).
  { rewrite existsb_exists. split; [intros ([z|s] & H & E); [discriminate|exists s; exact H]|intros (z & H); exists (LStr z); split; [exact H|reflexivity]]. }
  destruct (existsb is_lint l && existsb is_lstr l) eqn:B.
  - apply andb_true_iff in B. left. split; [reflexivity|]. split; [apply EI|apply ES]; apply B.
  - right. eexists. split; [reflexivity|]. split.
    + intros a. assert (X : forall k, In a (fold_right linsert [] k) <-> In a k).
      { induction k as [|b k IH]; [reflexivity|]. simpl. rewrite linsert_In, IH. intuition congruence. }
      rewrite X. apply distinct_In.
    + intros I S. apply EI in I. apply ES in S. rewrite I, S in B. discriminate.
Qed.

Lemma col_nunique_cases : forall f a, (exists c, col_nunique f a = Ok (nunique c) /\ filter (fun p => label_eqb a (fst p)) f = [(a, c)]) \/ col_nunique f a = Raise ValueError.
Proof.
  intros f a. unfold col_nunique. destruct (filter (fun p => label_eqb a (fst p)) f) as [|[b c] [|x l]] eqn:E; [right; reflexivity| |right; reflexivity].
  left. exists c. split; [reflexivity|]. assert (I : In (b, c) [(b, c)]) by (left; reflexivity). rewrite <- E in I. apply filter_In in I. cbn [fst] in I.
  destruct (label_eqb_spec a b) as [-> |N]; [reflexivity|]. destruct I; discriminate.
Qed.
Lemma filter_none : forall (B : Type) (f : list (label * B)) a, ~ In a (labels f) -> filter (fun p => label_eqb a (fst p)) f = [].
Proof.
  intros B f a H. induction f as [|[b c] f IH]; [reflexivity|]. simpl in *. rewrite label_eqb_false by (intros E; apply H; left; congruence). apply IH. tauto.
Qed.
Lemma filter_unique : forall (B : Type) (f : list (label * B)) a c, NoDup (labels f) -> In (a, c) f -> filter (fun p => label_eqb a (fst p)) f = [(a, c)].
Proof.
  intros B f a c. induction f as [|[b d] f IH]; intros N H; [destruct H|]. simpl in N. apply NoDup_cons_iff in N. destruct N as [N1 N2]. simpl. destruct H as [H|H].
  - injection H as -> ->. rewrite label_eqb_refl, (filter_none _ f a N1). reflexivity.
  - rewrite label_eqb_false; [apply IH; assumption|]. intros ->. apply N1. apply in_map_iff. exists (b, c). split; [reflexivity|exact H].
Qed.
Lemma nunique_unique : forall f a c, NoDup (labels f) -> In (a, c) f -> col_nunique f a = Ok (nunique c).
Proof. intros f a c N H. unfold col_nunique. rewrite (filter_unique _ f a c N H). reflexivity. Qed.
Lemma nodup_of_nunique : forall f, (forall a, In a (labels f) -> col_nunique f a <> Raise ValueError) -> NoDup (labels f).
Proof.
  intros f H. assert (C : forall a, (length (filter (fun p => label_eqb a (fst p)) f) <= 1)%nat).
  { intros a. destruct (in_dec label_dec a (labels f)) as [I|I]; [|rewrite filter_none by exact I; simpl; lia].
    destruct (col_nunique_cases f a) as [(c & _ & E)|E]; [rewrite E; simpl; lia|]. exfalso. exact (H a I E). }
  clear H. induction f as [|[b d] f IH]; [constructor|]. simpl. constructor.
  - intros I. specialize (C b). simpl in C. rewrite label_eqb_refl in C. simpl in C. apply in_map_iff in I. destruct I as ([b' d'] & E & I). cbn in E. subst b'.
    assert (X : In (b, d') (filter (fun p => label_eqb b (fst p)) f)) by (apply filter_In; split; [exact I|apply label_eqb_refl]).
    destruct (filter (fun p => label_eqb b (fst p)) f); [destruct X|simpl in C; lia].
  - apply IH. intros a. specialize (C a). simpl in C. destruct (label_eqb a b); simpl in C; lia.
Qed.

Lemma many_spec : forall f l,
  (exists ws, many_loop f l = Ok ws /\ (forall a, In a l -> exists n, col_nunique f a = Ok n /\ (1000 < n -> exists s, a = LStr s)%nat) /\
     (forall x, In x ws <-> exists s n, x = WMany s n /\ In (LStr s) l /\ col_nunique f (LStr s) = Ok n /\ (1000 < n)%nat)) \/
  (many_loop f l = Raise ValueError /\ exists a, In a l /\ (col_nunique f a = Raise ValueError \/ exists z n, a = LInt z /\ col_nunique f a = Ok n /\ (1000 < n)%nat)).
Proof.
  intros f l. induction l as [|a l IH].
  - left. exists []. split; [reflexivity|]. split; [intros a []|]. intros x. split; [intros []|intros (s & n & _ & [] & _)].
  - cbn [many_loop]. destruct (col_nunique_cases f a) as [(c & E & _)|E]; [|right; rewrite E; split; [reflexivity|exists a; split; [left; reflexivity|left; exact E]]].
    rewrite E. cbn [rbind]. destruct (Nat.ltb_spec 1000 (nunique c)) as [B|B].
    + destruct a as [z|s].
      { right. split; [reflexivity|]. exists (LInt z). split; [left; reflexivity|right]. exists z, (nunique c). repeat split; assumption. }
      cbn [fmt_s rbind]. destruct IH as [(ws & A1 & A2 & A3)|(A1 & a' & A2 & A3)].
      * left. rewrite A1. exists (WMany s (nunique c) :: ws). split; [reflexivity|]. split.
        { intros b [<- |H]; [exists (nunique c); split; [exact E|intros _; exists s; reflexivity]|apply A2; exact H]. }
        intros x. cbn [In]. rewrite A3. split.
        { intros [<- |(s' & n & X)]; [exists s, (nunique c); repeat split; [left; reflexivity|exact E|exact B]|exists s', n; intuition]. }
        { intros (s' & n & -> & [H|H] & X & Y); [left; injection H as ->; rewrite E in X; injection X as ->; reflexivity|right; exists s', n; repeat split; assumption]. }
      * right. rewrite A1. split; [reflexivity|]. exists a'. split; [right; exact A2|exact A3].
    + cbn [rbind]. destruct IH as [(ws & A1 & A2 & A3)|(A1 & a' & A2 & A3)].
      * left. rewrite A1. exists ws. split; [reflexivity|]. split.
        { intros b [<- |H]; [exists (nunique c); split; [exact E|lia]|apply A2; exact H]. }
        intros x. rewrite A3. split; intros (s & n & -> & H & X & Y); exists s, n; repeat split; try assumption; [right; exact H|].
        destruct H as [-> |H]; [|exact H]. rewrite E in X. injection X as <-. lia.
      * right. rewrite A1. split; [reflexivity|]. exists a'. split; [right; exact A2|exact A3].
Qed.
Lemma few_spec : forall f bad l,
  (exists d ws, few_loop f bad l = Ok (d, ws) /\ (forall a, In a l -> exists n, col_nunique f a = Ok n /\ (bad n = true -> exists s, a = LStr s)) /\
     (forall a, In a d <-> In a l /\ exists n, col_nunique f a = Ok n /\ bad n = true) /\
     (forall x, In x ws <-> exists s n, x = WFew s n /\ In (LStr s) l /\ col_nunique f (LStr s) = Ok n /\ bad n = true)) \/
  (few_loop f bad l = Raise ValueError /\ exists a, In a l /\ (col_nunique f a = Raise ValueError \/ exists z n, a = LInt z /\ col_nunique f a = Ok n /\ bad n = true)).
Proof.
  intros f bad l. induction l as [|a l IH].
  - left. exists [], []. split; [reflexivity|]. split; [intros a []|]. split; [intros a; simpl; tauto|]. intros x. split; [intros []|intros (s & n & _ & [] & _)].
  - cbn [few_loop]. destruct (col_nunique_cases f a) as [(c & E & _)|E]; [|right; rewrite E; split; [reflexivity|exists a; split; [left; reflexivity|left; exact E]]].
    rewrite E. cbn [rbind]. destruct (bad (nunique c)) eqn:B.
    + destruct a as [z|s].
      { right. split; [reflexivity|]. exists (LInt z). split; [left; reflexivity|right]. exists z, (nunique c). repeat split; assumption. }
      cbn [fmt_s rbind]. destruct IH as [(d & ws & A1 & A2 & A4 & A3)|(A1 & a' & A2 & A3)].
      * left. rewrite A1. exists (LStr s :: d), (WFew s (nunique c) :: ws). split; [reflexivity|]. split; [|split].
        { intros b [<- |H]; [exists (nunique c); split; [exact E|intros _; exists s; reflexivity]|apply A2; exact H]. }
        { intros b. cbn [In]. rewrite A4. split; [intros [<- |[H X]]; [split; [left; reflexivity|exists (nunique c); split; assumption]|split; [right; exact H|exact X]]|].
          intros [[H|H] X]; [left; exact H|right; split; assumption]. }
        intros x. cbn [In]. rewrite A3. split.
        { intros [<- |(s' & n & X)]; [exists s, (nunique c); repeat split; [left; reflexivity|exact E|exact B]|exists s', n; intuition]. }
        { intros (s' & n & -> & [H|H] & X & Y); [left; injection H as ->; rewrite E in X; injection X as ->; reflexivity|right; exists s', n; repeat split; assumption]. }
      * right. rewrite A1. split; [reflexivity|]. exists a'. split; [right; exact A2|exact A3].
    + cbn [rbind]. destruct IH as [(d & ws & A1 & A2 & A4 & A3)|(A1 & a' & A2 & A3)].
      * left. rewrite A1. exists d, ws. split; [reflexivity|]. split; [|split].
        { intros b [<- |H]; [exists (nunique c); split; [exact E|congruence]|apply A2; exact H]. }
        { intros b. rewrite A4. split; [intros [H X]; split; [right; exact H|exact X]|]. intros [[H|H] (n & X & Y)]; [|split; [exact H|exists n; split; assumption]].
          subst b. rewrite E in X. injection X as <-. congruence. }
        intros x. rewrite A3. split; intros (s & n & -> & H & X & Y); exists s, n; repeat split; try assumption; [right; exact H|].
        destruct H as [-> |H]; [|exact H]. rewrite E in X. injection X as <-. congruence.
      * right. rewrite A1. split; [reflexivity|]. exists a'. split; [right; exact A2|exact A3].
Qed.
