(** Python results: a value or an exception, and association lists. *)
From Coq Require Import List String Bool ZArith Lia.
Import ListNotations.

Inductive exn := ValueError | TypeError | KeyError | IndexError | NotImplementedError | AttributeError
               | UnboundLocalError | FileNotFoundError | UndefinedBehaviour | RuntimeError | LinAlgError | ZeroDivisionError | AssertionError.
Inductive res (A : Type) := Ok (a : A) | Raise (e : exn).
Arguments Ok {A} _. Arguments Raise {A} _.
Definition rbind {A B} (m : res A) (f : A -> res B) : res B :=
  match m with Ok a => f a | Raise e => Raise e end.
Notation "'let*' x := m 'in' f" := (rbind m (fun x => f)) (at level 200, x name, m at level 100, f at level 200).

Definition rmap {A B} (f : A -> B) (m : res A) : res B := match m with Ok a => Ok (f a) | Raise e => Raise e end.
Definition is_ok {A} (m : res A) : bool := match m with Ok _ => true | _ => false end.

Fixpoint mapM {A B} (f : A -> res B) (l : list A) : res (list B) :=
  match l with
  | [] => Ok []
  | a :: l' => let* b := f a in let* bs := mapM f l' in Ok (b :: bs)
  end.

(** association lists: a data frame's columns, a dict *)
Fixpoint assoc {B} (k : string) (l : list (string * B)) : option B :=
  match l with [] => None | (k', b) :: l' => if String.eqb k k' then Some b else assoc k l' end.
Definition keys {B} (l : list (string * B)) : list string := map fst l.
(** replace the value of an existing key (df[col] = ..., dict update of an existing key) *)
Fixpoint set_assoc {B} (k : string) (b : B) (l : list (string * B)) : list (string * B) :=
  match l with
  | [] => []
  | (k', b') :: l' => if String.eqb k k' then (k', b) :: l' else (k', b') :: set_assoc k b l'
  end.
(** dict update: replace or append *)
Definition dict_set {B} (k : string) (b : B) (l : list (string * B)) : list (string * B) :=
  match assoc k l with Some _ => set_assoc k b l | None => l ++ [(k, b)] end.

Definition mem (s : string) (l : list string) : bool := existsb (String.eqb s) l.

Lemma mem_In : forall s l, mem s l = true <-> In s l.
Proof.
  intros s l. unfold mem. rewrite existsb_exists. split.
  - intros (x & Hx & E). apply String.eqb_eq in E. subst. exact Hx.
  - intros H. exists s. split; [exact H|apply String.eqb_refl].
Qed.

Lemma mem_false : forall s l, mem s l = false <-> ~ In s l.
Proof. intros s l. rewrite <- mem_In. destruct (mem s l); split; congruence. Qed.

Lemma assoc_In : forall B k (b : B) l, assoc k l = Some b -> In (k, b) l.
Proof.
  induction l as [|[k' b'] l IH]; simpl; [discriminate|].
  destruct (String.eqb_spec k k') as [->|]; intros H; [inversion H; auto|auto].
Qed.

Lemma assoc_None : forall B k (l : list (string * B)), assoc k l = None <-> ~ In k (keys l).
Proof.
  induction l as [|[k' b'] l IH]; simpl; [tauto|].
  destruct (String.eqb_spec k k') as [->|Hne]; [split; [discriminate|tauto]|].
  rewrite IH. intuition congruence.
Qed.

Lemma assoc_NoDup : forall B k (b : B) l, NoDup (keys l) -> In (k, b) l -> assoc k l = Some b.
Proof.
  induction l as [|[k' b'] l IH]; simpl; [tauto|]. intros Hn Hi.
  inversion Hn as [|x xs Hx Hl]; subst.
  destruct Hi as [E|Hi].
  - inversion E; subst. rewrite String.eqb_refl. reflexivity.
  - destruct (String.eqb_spec k k') as [->|]; [|auto].
    exfalso. apply Hx. apply in_map_iff. exists (k', b). auto.
Qed.

Lemma keys_set_assoc : forall B k (b : B) l, keys (set_assoc k b l) = keys l.
Proof. induction l as [|[k' b'] l IH]; simpl; [reflexivity|]. destruct (String.eqb k k'); simpl; [reflexivity|]. f_equal. exact IH. Qed.

Lemma assoc_set_same : forall B k (b : B) l, In k (keys l) -> assoc k (set_assoc k b l) = Some b.
Proof.
  induction l as [|[k' b'] l IH]; simpl; [tauto|]. intros H.
  destruct (String.eqb_spec k k') as [->|Hne]; simpl.
  - rewrite String.eqb_refl. reflexivity.
  - destruct (String.eqb_spec k k'); [congruence|]. apply IH. destruct H; [congruence|assumption].
Qed.

Lemma assoc_set_other : forall B k k2 (b : B) l, k2 <> k -> assoc k2 (set_assoc k b l) = assoc k2 l.
Proof.
  induction l as [|[k' b'] l IH]; simpl; [reflexivity|]. intros H.
  destruct (String.eqb_spec k k') as [->|Hne]; simpl.
  - destruct (String.eqb_spec k2 k'); [congruence|reflexivity].
  - rewrite IH by assumption. reflexivity.
Qed.

Lemma mapM_ok : forall A B (f : A -> res B) l bs, mapM f l = Ok bs -> Forall2 (fun a b => f a = Ok b) l bs.
Proof.
  induction l as [|a l IH]; simpl; intros bs H; [inversion H; constructor|].
  destruct (f a) as [b|] eqn:E; [cbn [rbind] in H|discriminate].
  destruct (mapM f l) as [bs'|] eqn:E2; [cbn [rbind] in H|discriminate].
  inversion H; subst. constructor; auto.
Qed.

Lemma mapM_all_ok : forall A B (f : A -> res B) g l, (forall a, In a l -> f a = Ok (g a)) -> mapM f l = Ok (map g l).
Proof.
  induction l as [|a l IH]; simpl; intros H; [reflexivity|].
  rewrite H by auto. cbn [rbind]. rewrite IH by auto. reflexivity.
Qed.
