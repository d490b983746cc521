(** Floating-point results as seen by the assembly code: NaN, a number, or an infinity. Rounding is not modelled. *)
From Coq Require Import Reals List Bool Lra.
Import ListNotations.
Open Scope R_scope.

Inductive num := NaN | Fin (r : R) | PInf | MInf.
Definition isnan (x : num) : bool := match x with NaN => true | _ => false end.
(** IEEE addition *)
Definition nadd (x y : num) : num :=
  match x, y with
  | NaN, _ | _, NaN => NaN
  | PInf, MInf | MInf, PInf => NaN
  | PInf, _ | _, PInf => PInf
  | MInf, _ | _, MInf => MInf
  | Fin a, Fin b => Fin (a + b)
  end.
(** division by a positive number *)
Definition ndivp (x : num) (d : R) : num := match x with Fin a => Fin (a / d) | _ => x end.
Definition nneg (x : num) : num := match x with NaN => NaN | Fin a => Fin (- a) | PInf => MInf | MInf => PInf end.
Definition nabs (x : num) : num := match x with NaN => NaN | Fin a => Fin (Rabs a) | _ => PInf end.
(** IEEE comparisons: false as soon as one side is NaN *)
Definition nlt (x y : num) : bool :=
  match x, y with
  | NaN, _ | _, NaN => false
  | MInf, MInf => false | MInf, _ => true | _, MInf => false
  | PInf, _ => false | _, PInf => true
  | Fin a, Fin b => if Rlt_dec a b then true else false
  end.
Definition neqb (x y : num) : bool :=
  match x, y with
  | PInf, PInf | MInf, MInf => true
  | Fin a, Fin b => if Req_EM_T a b then true else false
  | _, _ => false
  end.
Definition nle (x y : num) : bool := nlt x y || neqb x y.

Lemma nadd_comm : forall x y, nadd x y = nadd y x.
Proof. intros [|a| |] [|b| |]; cbn; try reflexivity. rewrite Rplus_comm. reflexivity. Qed.
Lemma nadd_assoc : forall x y z, nadd x (nadd y z) = nadd (nadd x y) z.
Proof. intros [|a| |] [|b| |] [|c| |]; cbn; try reflexivity. rewrite Rplus_assoc. reflexivity. Qed.
