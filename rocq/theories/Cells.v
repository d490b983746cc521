(** Values of data-frame cells and their order (pandas sorts group keys). *)
From Coq Require Import ZArith List Bool String Lia Eqdep_dec OrderedTypeEx Reals Lra.
Import ListNotations.
From Flocq Require Import Core BinarySingleNaN.
From Verif Require Import F64.
Open Scope Z_scope.

(** category floats: not NaN and not -0.0 (missing values are [CNaN], -0.0 is the key 0.0) *)
Definition kf_ok (x : f64) : bool :=
  match x with B754_nan => false | B754_zero true => false | _ => true end.
Record kfloat := mkK { kval : f64; kok : kf_ok kval = true }.

(** A cell: missing, an integer (also bin numbers, booleans), a float, a string. *)
Inductive cell := CNaN | CInt (z : Z) | CFlt (x : kfloat) | CStr (s : string).

Definition kcmp (x y : kfloat) : comparison :=
  match Bcompare (kval x) (kval y) with Some c => c | None => Eq end.

Definition scmp (x y : string) : comparison := String_as_OT.cmp x y.

(** order of keys: integers, then floats, then strings (pandas: numbers before strings).  Simplification: a column
    mixing integers and floats is upcast to float by pandas, so the two kinds do not meet in one column. *)
Definition ccmp (x y : cell) : comparison :=
  match x, y with
  | CNaN, CNaN => Eq | CNaN, _ => Lt | _, CNaN => Gt
  | CInt a, CInt b => Z.compare a b | CInt _, _ => Lt | _, CInt _ => Gt
  | CFlt a, CFlt b => kcmp a b | CFlt _, _ => Lt | _, CFlt _ => Gt
  | CStr a, CStr b => scmp a b
  end.

Definition ceqb (x y : cell) : bool := match ccmp x y with Eq => true | _ => false end.
Definition cltb (x y : cell) : bool := match ccmp x y with Lt => true | _ => false end.
Definition clt (x y : cell) : Prop := ccmp x y = Lt.

(* ---- order facts ---- *)
Lemma kfloat_eq : forall x y, kval x = kval y -> x = y.
Proof.
  intros [x hx] [y hy] E. simpl in E. subst y. f_equal. apply UIP_dec. decide equality.
Qed.

Lemma scmp_eq : forall x y, scmp x y = Eq <-> x = y.
Proof. intros. unfold scmp. apply String_as_OT.cmp_eq. Qed.
Lemma scmp_antisym : forall x y, scmp y x = CompOpp (scmp x y).
Proof. intros. unfold scmp. apply String_as_OT.cmp_antisym. Qed.
Lemma scmp_trans : forall x y z, scmp x y = Lt -> scmp y z = Lt -> scmp x z = Lt.
Proof.
  intros x y z H1 H2. unfold scmp in *. apply String_as_OT.cmp_lt in H1, H2. apply String_as_OT.cmp_lt.
  eapply String_as_OT.lt_trans; eassumption.
Qed.

(** position of a non-NaN float on the extended real line *)
Definition fpos (x : f64) : option R :=
  match x with B754_nan => None | B754_infinity _ => None | _ => Some (B2R x) end.

Lemma kcmp_antisym : forall x y, kcmp y x = CompOpp (kcmp x y).
Proof.
  intros x y. unfold kcmp. rewrite (Bcompare_swap 53 1024 (kval x) (kval y)).
  destruct (Bcompare (kval x) (kval y)); reflexivity.
Qed.

Lemma Bcompare_fin : forall x y : f64, is_finite x = true -> is_finite y = true ->
  Bcompare x y = Some (Rcompare (B2R x) (B2R y)).
Proof. intros. apply Bcompare_correct; assumption. Qed.

Lemma kcmp_eq : forall x y, kcmp x y = Eq <-> x = y.
Proof.
  intros x y. split.
  2:{ intros ->. unfold kcmp. destruct y as [v hv]; cbn [kval]. destruct v as [s|s| |s m e He]; try discriminate.
      - reflexivity.
      - destruct s; reflexivity.
      - rewrite Bcompare_fin by reflexivity. rewrite Rcompare_Eq; reflexivity. }
  intros H. apply kfloat_eq. destruct x as [x hx], y as [y hy]. unfold kcmp in H. cbn [kval] in *.
  destruct x as [[|]|s| |s m e He]; try discriminate; destruct y as [[|]|s'| |s' m' e' He']; try discriminate; try reflexivity.
  - destruct s'; discriminate.
  - destruct s'; discriminate H.
  - destruct s; discriminate.
  - destruct s, s'; try discriminate; reflexivity.
  - destruct s; discriminate.
  - destruct s; discriminate H.
  - destruct s'; discriminate.
  - rewrite Bcompare_fin in H by reflexivity.
    apply B2R_inj; [reflexivity|reflexivity|].
    apply Rcompare_Eq_inv. exact H.
Qed.

Lemma kcmp_lt_cases : forall x y, kcmp x y = Lt ->
  (is_finite (kval x) = true /\ is_finite (kval y) = true /\ (B2R (kval x) < B2R (kval y))%R) \/
  (kval x = B754_infinity true /\ kval y <> B754_infinity true) \/
  (kval y = B754_infinity false /\ kval x <> B754_infinity false).
Proof.
  intros [x hx] [y hy] H. unfold kcmp in H. cbn [kval] in *.
  destruct x as [[|]|[|]| |s m e He]; try discriminate; destruct y as [[|]|[|]| |s' m' e' He']; try discriminate;
    try (right; left; split; [reflexivity|discriminate]); try (right; right; split; [reflexivity|discriminate]);
    left; (split; [reflexivity|]); (split; [reflexivity|]);
    rewrite Bcompare_fin in H by reflexivity; apply Rcompare_Lt_inv; exact H.
Qed.

Lemma kcmp_lt_intro : forall x y,
  (is_finite (kval x) = true /\ is_finite (kval y) = true /\ (B2R (kval x) < B2R (kval y))%R) \/
  (kval x = B754_infinity true /\ kval y <> B754_infinity true) \/
  (kval y = B754_infinity false /\ kval x <> B754_infinity false) -> kcmp x y = Lt.
Proof.
  intros [x hx] [y hy] H. unfold kcmp. cbn [kval] in *.
  destruct H as [(Fx & Fy & L)|[(-> & N)|(-> & N)]].
  - rewrite Bcompare_fin by assumption. rewrite Rcompare_Lt by exact L. reflexivity.
  - destruct y as [[|]|[|]| |s' m' e' He']; try discriminate; try reflexivity. congruence.
  - destruct x as [[|]|[|]| |s' m' e' He']; try discriminate; try reflexivity. congruence.
Qed.

Lemma kcmp_trans : forall x y z, kcmp x y = Lt -> kcmp y z = Lt -> kcmp x z = Lt.
Proof.
  intros x y z H1 H2. apply kcmp_lt_intro.
  apply kcmp_lt_cases in H1. apply kcmp_lt_cases in H2.
  destruct H1 as [(Fx & Fy & L)|[(Ex & N)|(Ey & N)]], H2 as [(Fy' & Fz & L')|[(Ey' & N')|(Ez & N')]].
  - left. repeat split; auto. lra.
  - rewrite Ey' in Fy. discriminate.
  - right. right. split; [exact Ez|]. intros E. rewrite E in Fx. discriminate.
  - right. left. split; [exact Ex|]. intros E. rewrite E in Fz. discriminate.
  - congruence.
  - right. left. split; [exact Ex|]. rewrite Ez. discriminate.
  - rewrite Ey in Fy'. discriminate.
  - rewrite Ey in Ey'. discriminate.
  - congruence.
Qed.

Lemma ccmp_eq : forall x y, ccmp x y = Eq <-> x = y.
Proof.
  intros [|a|a|a] [|b|b|b]; simpl; split; intros H; try discriminate; try reflexivity.
  - apply Z.compare_eq in H. congruence.
  - inversion H. apply Z.compare_refl.
  - apply kcmp_eq in H. congruence.
  - inversion H. apply kcmp_eq. reflexivity.
  - apply scmp_eq in H. congruence.
  - inversion H. apply scmp_eq. reflexivity.
Qed.

Lemma ccmp_antisym : forall x y, ccmp y x = CompOpp (ccmp x y).
Proof.
  intros [|a|a|a] [|b|b|b]; simpl; try reflexivity.
  - apply Z.compare_antisym.
  - apply kcmp_antisym.
  - apply scmp_antisym.
Qed.

Lemma clt_trans : forall x y z, clt x y -> clt y z -> clt x z.
Proof.
  unfold clt. intros [|a|a|a] [|b|b|b] [|c|c|c]; simpl; intros H1 H2; try discriminate; try reflexivity.
  - rewrite Z.compare_lt_iff in *. eapply Z.lt_trans; eassumption.
  - eapply kcmp_trans; eassumption.
  - eapply scmp_trans; eassumption.
Qed.

Lemma clt_irrefl : forall x, ~ clt x x.
Proof. intros x H. unfold clt in H. assert (E : ccmp x x = Eq) by (apply ccmp_eq; reflexivity). congruence. Qed.

Lemma ccmp_cases : forall x y, {clt x y} + {x = y} + {clt y x}.
Proof.
  intros x y. destruct (ccmp x y) eqn:E.
  - left. right. apply ccmp_eq. exact E.
  - left. left. exact E.
  - right. unfold clt. rewrite ccmp_antisym, E. reflexivity.
Qed.

Lemma ceqb_eq : forall x y, ceqb x y = true <-> x = y.
Proof. intros x y. unfold ceqb. rewrite <- ccmp_eq. destruct (ccmp x y); split; congruence. Qed.

Lemma ceqb_refl : forall x, ceqb x x = true.
Proof. intros x. apply ceqb_eq. reflexivity. Qed.

Lemma cell_eq_dec : forall x y : cell, {x = y} + {x <> y}.
Proof. intros x y. destruct (ceqb x y) eqn:E; [left; apply ceqb_eq; exact E|right; intros H; apply ceqb_eq in H; congruence]. Qed.

Lemma cltb_clt : forall x y, cltb x y = true <-> clt x y.
Proof. intros x y. unfold cltb, clt. destruct (ccmp x y); split; congruence. Qed.

(* ---- sorted distinct lists ---- *)
Fixpoint insert_d (x : cell) (l : list cell) : list cell :=
  match l with
  | [] => [x]
  | y :: l' => match ccmp x y with Lt => x :: l | Eq => l | Gt => y :: insert_d x l' end
  end.
(** sorted list of the distinct elements *)
Definition dsort (l : list cell) : list cell := fold_right insert_d [] l.

From Coq Require Import Sorting.Sorted.
Definition ssorted := StronglySorted clt.

Lemma insert_d_In : forall x l y, In y (insert_d x l) <-> y = x \/ In y l.
Proof.
  induction l as [|a l IH]; simpl; intros y; [intuition congruence|].
  destruct (ccmp x a) eqn:E; simpl.
  - apply ccmp_eq in E. subst. intuition congruence.
  - intuition congruence.
  - rewrite IH. intuition congruence.
Qed.

Lemma insert_d_sorted : forall x l, ssorted l -> ssorted (insert_d x l).
Proof.
  unfold ssorted. induction l as [|a l IH]; simpl; intros H; [repeat constructor|].
  inversion H as [|a' l' Hs Hf]; subst.
  destruct (ccmp x a) eqn:E.
  - exact H.
  - constructor; [exact H|]. constructor; [exact E|].
    eapply Forall_impl; [|exact Hf]. intros b Hb. eapply clt_trans; eassumption.
  - constructor; [apply IH; exact Hs|]. apply Forall_forall. intros b Hb. apply insert_d_In in Hb.
    destruct Hb as [->|Hb]; [unfold clt; rewrite ccmp_antisym, E; reflexivity|].
    rewrite Forall_forall in Hf. apply Hf. exact Hb.
Qed.

Lemma dsort_In : forall l y, In y (dsort l) <-> In y l.
Proof. induction l as [|a l IH]; simpl; intros y; [tauto|]. rewrite insert_d_In, IH. intuition congruence. Qed.

Lemma dsort_sorted : forall l, ssorted (dsort l).
Proof. induction l as [|a l IH]; simpl; [constructor|]. apply insert_d_sorted. exact IH. Qed.

Lemma ssorted_ext : forall l1 l2, ssorted l1 -> ssorted l2 -> (forall x, In x l1 <-> In x l2) -> l1 = l2.
Proof.
  induction l1 as [|a l1 IH]; intros l2 H1 H2 HE.
  - destruct l2 as [|b l2]; [reflexivity|]. exfalso. apply (HE b). left. reflexivity.
  - destruct l2 as [|b l2]; [exfalso; apply (HE a); left; reflexivity|].
    inversion H1 as [|? ? S1 F1]; subst. inversion H2 as [|? ? S2 F2]; subst.
    rewrite Forall_forall in F1, F2.
    assert (a = b).
    { destruct (proj1 (HE a) (or_introl eq_refl)) as [E|Hin]; [congruence|].
      destruct (proj2 (HE b) (or_introl eq_refl)) as [E|Hin2]; [congruence|].
      exfalso. apply (clt_irrefl a). eapply clt_trans; [apply F1; exact Hin2|apply F2; exact Hin]. }
    subst b. f_equal. apply IH; auto. intros x. split; intros Hx.
    + destruct (proj1 (HE x) (or_intror Hx)) as [E|]; auto. subst x. exfalso. apply (clt_irrefl a), F1, Hx.
    + destruct (proj2 (HE x) (or_intror Hx)) as [E|]; auto. subst x. exfalso. apply (clt_irrefl a), F2, Hx.
Qed.

Lemma ssorted_NoDup : forall l, ssorted l -> NoDup l.
Proof.
  induction l as [|a l IH]; intros H; constructor; inversion H as [|? ? S F]; subst.
  - intros Hin. rewrite Forall_forall in F. apply (clt_irrefl a), F, Hin.
  - apply IH; exact S.
Qed.
