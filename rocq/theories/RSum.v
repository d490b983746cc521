(** Finite sums over lists and real matrices. *)
From Coq Require Import List Reals Lra Lia Sorting.Permutation Bool.
Import ListNotations.
Open Scope R_scope.

Definition lsum {A} (f : A -> R) (l : list A) : R := fold_right (fun a s => f a + s) 0 l.

(** a 2d numpy array: shape and elements *)
Record mat := mkMat { nr : nat; nc : nat; el : nat -> nat -> R }.

Definition rowsum (m : mat) (i : nat) : R := lsum (fun j => el m i j) (seq 0 (nc m)).
Definition colsum (m : mat) (j : nat) : R := lsum (fun i => el m i j) (seq 0 (nr m)).
Definition matsum (m : mat) : R := lsum (fun i => rowsum m i) (seq 0 (nr m)).
Definition transp (m : mat) : mat := mkMat (nc m) (nr m) (fun i j => el m j i).
(** rows [I] and columns [J] of [m], in that order *)
Definition submat (m : mat) (I J : list nat) : mat := mkMat (length I) (length J) (fun i j => el m (nth i I 0%nat) (nth j J 0%nat)).

Lemma lsum_cons : forall A (f : A -> R) a l, lsum f (a :: l) = f a + lsum f l. Proof. reflexivity. Qed.
Lemma lsum_nil : forall A (f : A -> R), lsum f [] = 0. Proof. reflexivity. Qed.
Lemma lsum_ext : forall A (f g : A -> R) l, (forall a, In a l -> f a = g a) -> lsum f l = lsum g l.
Proof. induction l as [|a l IH]; intros H; [reflexivity|]. rewrite !lsum_cons, H, IH; auto. - intros; apply H; right; assumption. - left; reflexivity. Qed.
Lemma lsum_app : forall A (f : A -> R) l l', lsum f (l ++ l') = lsum f l + lsum f l'.
Proof. induction l as [|a l IH]; intros; cbn [app]; [rewrite lsum_nil; lra|]. rewrite !lsum_cons, IH. lra. Qed.
Lemma lsum_map : forall A B (g : A -> B) f l, lsum f (map g l) = lsum (fun a => f (g a)) l.
Proof. induction l as [|a l IH]; cbn [map]; [reflexivity|]. rewrite !lsum_cons, IH. reflexivity. Qed.
Lemma lsum_perm : forall A (f : A -> R) l l', Permutation l l' -> lsum f l = lsum f l'.
Proof. induction 1; try reflexivity; rewrite ?lsum_cons in *; lra. Qed.
Lemma lsum_plus : forall A (f g : A -> R) l, lsum (fun a => f a + g a) l = lsum f l + lsum g l.
Proof. induction l as [|a l IH]; [rewrite !lsum_nil; lra|]. rewrite !lsum_cons, IH. lra. Qed.
Lemma lsum_minus : forall A (f g : A -> R) l, lsum (fun a => f a - g a) l = lsum f l - lsum g l.
Proof. induction l as [|a l IH]; [rewrite !lsum_nil; lra|]. rewrite !lsum_cons, IH. lra. Qed.
Lemma lsum_scal : forall A (f : A -> R) c l, lsum (fun a => c * f a) l = c * lsum f l.
Proof. induction l as [|a l IH]; [rewrite !lsum_nil; lra|]. rewrite !lsum_cons, IH. lra. Qed.
Lemma lsum_scal_r : forall A (f : A -> R) c l, lsum (fun a => f a * c) l = lsum f l * c.
Proof. induction l as [|a l IH]; [rewrite !lsum_nil; lra|]. rewrite !lsum_cons, IH. lra. Qed.
Lemma lsum_0 : forall A (f : A -> R) l, (forall a, In a l -> f a = 0) -> lsum f l = 0.
Proof. induction l as [|a l IH]; intros H; [reflexivity|]. rewrite lsum_cons, H, IH by (try (left; reflexivity); intros; apply H; right; assumption). lra. Qed.
Lemma lsum_le : forall A (f g : A -> R) l, (forall a, In a l -> f a <= g a) -> lsum f l <= lsum g l.
Proof. induction l as [|a l IH]; intros H; [rewrite !lsum_nil; lra|]. rewrite !lsum_cons. assert (f a <= g a) by (apply H; left; reflexivity). assert (lsum f l <= lsum g l) by (apply IH; intros; apply H; right; assumption). lra. Qed.
Lemma lsum_nonneg : forall A (f : A -> R) l, (forall a, In a l -> 0 <= f a) -> 0 <= lsum f l.
Proof. intros. rewrite <- (lsum_0 A (fun _ => 0) l) by reflexivity. apply lsum_le. assumption. Qed.
Lemma lsum_le_elem : forall A (f : A -> R) l a, (forall x, In x l -> 0 <= f x) -> In a l -> f a <= lsum f l.
Proof.
  induction l as [|b l IH]; intros a H Hin; [destruct Hin|destruct Hin as [->|Hi]].
  - rewrite lsum_cons. assert (0 <= lsum f l) by (apply lsum_nonneg; intros; apply H; right; assumption). lra.
  - rewrite lsum_cons. assert (0 <= f b) by (apply H; left; reflexivity). assert (f a <= lsum f l) by (apply IH; [intros; apply H; right; assumption|exact Hi]). lra.
Qed.
Lemma lsum_zero_elem : forall A (f : A -> R) l a, (forall x, In x l -> 0 <= f x) -> lsum f l = 0 -> In a l -> f a = 0.
Proof. intros A f l a H E Hi. assert (f a <= lsum f l) by (apply lsum_le_elem; assumption). assert (0 <= f a) by (apply H; exact Hi). lra. Qed.
Lemma lsum_pos : forall A (f : A -> R) l a, (forall x, In x l -> 0 <= f x) -> In a l -> 0 < f a -> 0 < lsum f l.
Proof. intros A f l a H Hi Hp. assert (f a <= lsum f l) by (apply lsum_le_elem; assumption). lra. Qed.
Lemma lsum_const : forall A c (l : list A), lsum (fun _ => c) l = INR (length l) * c.
Proof. induction l as [|a l IH]; [rewrite lsum_nil; simpl; lra|]. rewrite lsum_cons, IH. cbn [length]. rewrite S_INR. lra. Qed.
Lemma lsum_swap : forall A B (f : A -> B -> R) l l', lsum (fun a => lsum (fun b => f a b) l') l = lsum (fun b => lsum (fun a => f a b) l) l'.
Proof.
  induction l as [|a l IH]; intros l'.
  - rewrite lsum_nil. symmetry. apply lsum_0. reflexivity.
  - rewrite lsum_cons, IH, <- lsum_plus. apply lsum_ext. reflexivity.
Qed.
Lemma lsum_abs : forall A (f : A -> R) l, Rabs (lsum f l) <= lsum (fun a => Rabs (f a)) l.
Proof.
  induction l as [|a l IH]; [rewrite !lsum_nil, Rabs_R0; lra|]. rewrite !lsum_cons.
  apply Rle_trans with (1 := Rabs_triang _ _). lra.
Qed.
Lemma lsum_filter : forall A (f : A -> R) (p : A -> bool) l, (forall a, In a l -> p a = false -> f a = 0) -> lsum f (filter p l) = lsum f l.
Proof.
  induction l as [|a l IH]; intros H; [reflexivity|]. cbn [filter]. assert (IH' : lsum f (filter p l) = lsum f l) by (apply IH; intros; apply H; [right; assumption|assumption]).
  destruct (p a) eqn:E; rewrite !lsum_cons, IH'; [reflexivity|]. rewrite (H a) by (try (left; reflexivity); assumption). lra.
Qed.
(** sums over duplicate-free lists that agree where the summand is not zero *)
Lemma lsum_support : forall A (dec : forall x y : A, {x = y} + {x <> y}) (f : A -> R) l l', NoDup l -> NoDup l' ->
  (forall a, f a <> 0 -> (In a l <-> In a l')) -> lsum f l = lsum f l'.
Proof.
  intros A dec f l l' N N' H.
  set (p := fun a => if Req_EM_T (f a) 0 then false else true).
  assert (HP : forall k, lsum f (filter p k) = lsum f k).
  { intros k. apply lsum_filter. intros a _. unfold p. destruct (Req_EM_T (f a) 0); [auto|discriminate]. }
  rewrite <- (HP l), <- (HP l'). apply lsum_perm. apply NoDup_Permutation; try (apply NoDup_filter; assumption).
  intros a. rewrite !filter_In. unfold p. destruct (Req_EM_T (f a) 0) as [E|E]; [split; intros [_ C]; discriminate|]. rewrite (H a E). tauto.
Qed.
Lemma lsum_nth : forall A (f : A -> R) (l : list A) d, lsum (fun i => f (nth i l d)) (seq 0 (length l)) = lsum f l.
Proof.
  intros A f l d. rewrite <- (lsum_map _ _ (fun i => nth i l d) f). f_equal.
  apply nth_ext with (d := d) (d' := d); [rewrite map_length, seq_length; reflexivity|].
  intros i Hi. rewrite map_length, seq_length in Hi.
  rewrite nth_indep with (d' := nth 0 l d) by (rewrite map_length, seq_length; exact Hi).
  rewrite (map_nth (fun i => nth i l d)). rewrite seq_nth by exact Hi. reflexivity.
Qed.

Lemma matsum_colsum : forall m, matsum m = lsum (colsum m) (seq 0 (nc m)).
Proof. intros m. unfold matsum, rowsum, colsum. apply lsum_swap. Qed.
Lemma rowsum_transp : forall m i, rowsum (transp m) i = colsum m i. Proof. reflexivity. Qed.
Lemma colsum_transp : forall m i, colsum (transp m) i = rowsum m i. Proof. reflexivity. Qed.
Lemma matsum_transp : forall m, matsum (transp m) = matsum m.
Proof. intros m. rewrite matsum_colsum. reflexivity. Qed.
