(** Assembly of a square table from the results of all pairs of columns: facts that do not depend on what is computed. *)
From Coq Require Import String ZArith List Bool Reals Lia Sorting.Permutation.
Import ListNotations.
From Verif Require Import F64 Base Cells BinModel HistModel Num PhikModel SpecPhik OverviewProofs.
Open Scope list_scope.

Lemma combos_In : forall A (l : list A) p q, In (p, q) (combos l) -> In p l /\ In q l.
Proof.
  induction l as [|a l IH]; intros p q H; [contradiction|]. cbn [combos] in H. apply in_app_or in H. destruct H as [H|H].
  - apply in_map_iff in H. destruct H as (b & E & H). injection E as -> ->. split; [left; reflexivity|exact H].
  - apply IH in H. simpl. tauto.
Qed.
Lemma combos_total : forall A (l : list A) p q, In p l -> In q l -> In (p, q) (combos l) \/ In (q, p) (combos l).
Proof.
  induction l as [|a l IH]; intros p q Hp Hq; [contradiction|]. cbn [combos].
  destruct Hp as [->|Hp]; [left; apply in_or_app; left; apply in_map_iff; exists q; auto|].
  destruct Hq as [->|Hq]; [right; apply in_or_app; left; apply in_map_iff; exists p; split; [reflexivity|right; exact Hp]|].
  destruct (IH p q Hp Hq); [left|right]; apply in_or_app; right; assumption.
Qed.
Lemma combos_asym : forall A (l : list A) p q, NoDup l -> In (p, q) (combos l) -> In (q, p) (combos l) -> p = q.
Proof.
  induction l as [|a l IH]; intros p q N H1 H2; [contradiction|]. inversion N as [|x y Na Nl]; subst.
  cbn [combos] in H1, H2. apply in_app_or in H1. apply in_app_or in H2.
  rewrite in_map_iff in H1, H2.
  destruct H1 as [(b & E & H1)|H1], H2 as [(c & E' & H2)|H2].
  - injection E as -> ->. injection E' as -> ->. reflexivity.
  - injection E as -> ->. apply combos_In in H2. tauto.
  - injection E' as -> ->. apply combos_In in H1. tauto.
  - apply IH; assumption.
Qed.
Lemma combos_nil : forall A (l : list A), combos l = [] -> l = [].
Proof. intros A [|a l] H; [reflexivity|discriminate]. Qed.
Lemma combos_map : forall A B (g : A -> B) l, combos (map g l) = map (fun p => (g (fst p), g (snd p))) (combos l).
Proof. induction l as [|a l IH]; [reflexivity|]. cbn [map combos]. rewrite IH, map_app. f_equal. cbn [map]. f_equal. rewrite !map_map. reflexivity. Qed.

Lemma mapM_In : forall A B (f : A -> res B) l bs, mapM f l = Ok bs -> forall b, In b bs <-> exists a, In a l /\ f a = Ok b.
Proof.
  induction l as [|a l IH]; simpl; intros bs H b; [inversion H; split; [intros []|intros (x & [] & _)]|].
  destruct (f a) as [b0|] eqn:E; [cbn [rbind] in H|discriminate]. destruct (mapM f l) as [bs'|] eqn:E2; [cbn [rbind] in H|discriminate].
  injection H as <-. simpl. rewrite (IH bs' eq_refl). split.
  - intros [<-|(x & Hx & Ex)]; [exists a; auto|exists x; auto].
  - intros (x & [->|Hx] & Ex); [left; congruence|right; exists x; auto].
Qed.
Lemma mapM_raise : forall A B (f : A -> res B) l e, mapM f l = Raise e -> exists a, In a l /\ f a = Raise e.
Proof.
  induction l as [|a l IH]; simpl; intros e H; [discriminate|].
  destruct (f a) as [b0|e0] eqn:E; [cbn [rbind] in H|cbn [rbind] in H; exists a; split; [auto|congruence]].
  destruct (mapM f l) as [bs'|e0] eqn:E2; [discriminate|]. cbn [rbind] in H. injection H as ->. destruct (IH e eq_refl) as (x & Hx & Ex). exists x. auto.
Qed.
Lemma mapM_ext : forall A B (f g : A -> res B) l, (forall a, In a l -> f a = g a) -> mapM f l = mapM g l.
Proof. induction l as [|a l IH]; intros H; [reflexivity|]. simpl. rewrite H by (left; reflexivity). rewrite IH by (intros; apply H; right; assumption). reflexivity. Qed.
Lemma mapM_map_in : forall A B C (f : B -> res C) (g : A -> B) l, mapM f (map g l) = mapM (fun a => f (g a)) l.
Proof. induction l as [|a l IH]; [reflexivity|]. simpl. rewrite IH. reflexivity. Qed.

Lemma nodup_keys : forall B (f : list (string * B)), NoDup (keys f) -> NoDup f.
Proof. intros B f H. unfold keys in H. apply NoDup_map_inv in H. exact H. Qed.
Lemma keys_fun : forall B (f : list (string * B)) p q, NoDup (keys f) -> In p f -> In q f -> fst p = fst q -> p = q.
Proof.
  intros B f [a x] [b y] N Hp Hq E. cbn in E. subst b. apply assoc_NoDup in Hp; [|exact N]. apply assoc_NoDup in Hq; [|exact N]. congruence.
Qed.

Section Assemble.
  Variable C : Type.
  Variable pv : string * C -> string * C -> res num.
  Variable f : list (string * C).
  Hypothesis N : NoDup (keys f).
  Definition pair_row (pq : (string * C) * (string * C)) : res (string * string * num) :=
    rmap (fun v => (fst (fst pq), fst (snd pq), v)) (pv (fst pq) (snd pq)).
  Variable vals : list (string * string * num).
  Hypothesis V : mapM pair_row (combos f) = Ok vals.

  Lemma in_vals : forall a b v, In (a, b, v) vals <-> exists p q, In (p, q) (combos f) /\ fst p = a /\ fst q = b /\ pv p q = Ok v.
  Proof.
    intros a b v. rewrite (mapM_In _ _ _ _ _ V). split.
    - intros ([p q] & H & E). unfold pair_row in E. cbn [fst snd] in E. destruct (pv p q) as [w|] eqn:P; [|discriminate]. cbn [rmap] in E. injection E as <- <- <-. exists p, q. auto.
    - intros (p & q & H & <- & <- & P). exists (p, q). split; [exact H|]. unfold pair_row. cbn [fst snd]. rewrite P. reflexivity.
  Qed.
  Lemma vals_one : one_value_per_pair vals.
  Proof.
    intros a b x y Hx Hy. unfold given in *. rewrite !in_vals in *.
    assert (K : forall p q p' q', In (p, q) (combos f) -> In (p', q') (combos f) -> (fst p = fst p' /\ fst q = fst q') \/ (fst p = fst q' /\ fst q = fst p') -> p = p' /\ q = q').
    { intros p q p' q' H H' E. pose proof (combos_In _ _ _ _ H) as [P Q]. pose proof (combos_In _ _ _ _ H') as [P' Q'].
      destruct E as [[E1 E2]|[E1 E2]].
      - split; eapply keys_fun; eassumption.
      - assert (p = q') by (eapply keys_fun; eassumption). assert (q = p') by (eapply keys_fun; eassumption). subst.
        assert (p' = q') by (symmetry; eapply combos_asym; [apply nodup_keys; exact N|exact H|exact H']). subst. auto. }
    destruct Hx as [(p & q & H & <- & <- & P)|(p & q & H & <- & <- & P)], Hy as [(p' & q' & H' & A & B & P')|(p' & q' & H' & A & B & P')];
      destruct (K _ _ _ _ H H') as [-> ->]; try (left; split; congruence); try (right; split; congruence); congruence.
  Qed.
  Lemma assembled : forall p q, In (p, q) (combos f) -> exists v, pv p q = Ok v /\
    tval (reindex (overview vals) (keys f)) (fst p) (fst q) = v /\ tval (reindex (overview vals) (keys f)) (fst q) (fst p) = v.
  Proof.
    intros p q H. pose proof (combos_In _ _ _ _ H) as [P Q].
    destruct (pv p q) as [v|e] eqn:E.
    - exists v. split; [reflexivity|]. assert (G : In (fst p, fst q, v) vals) by (apply in_vals; exists p, q; auto).
      rewrite !reindex_val by (apply in_map; assumption). split; apply overview_given; try exact vals_one; [left|right]; exact G.
    - exfalso. assert (HM := V). assert (R : is_ok (mapM pair_row (combos f)) = true) by (rewrite V; reflexivity).
      revert H R. clear -E. induction (combos f) as [|c l IH]; intros H R; [contradiction|]. simpl in R. destruct H as [->|H].
      + unfold pair_row in R. cbn [fst snd] in R. rewrite E in R. discriminate.
      + destruct (pair_row c); [cbn [rbind] in R|discriminate]. destruct (mapM pair_row l); [apply IH; [exact H|reflexivity]|discriminate].
  Qed.
  Lemma assembled_sym : forall a b, tval (reindex (overview vals) (keys f)) a b = tval (reindex (overview vals) (keys f)) b a.
  Proof.
    intros a b. unfold reindex. rewrite !tval_grid. destruct (in_dec string_dec a (keys f)), (in_dec string_dec b (keys f)); try reflexivity. apply tval_sym.
  Qed.
End Assemble.
