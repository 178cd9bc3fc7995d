(** * Res: Python exceptions as values. *)
From Coq Require Import List.

Inductive exn : Set :=
| TypeErr | ValueErr | IndexErr | NameErr | AttrErr | UnboundErr | UnitErr | WarningExn | GenericErr
| EOFErr
| OutOfFuel. (* not a Python exception: the model's bound on loop iterations was hit *)

Inductive res (A : Type) : Type :=
| Ok : A -> res A
| Err : exn -> res A.
Arguments Ok {A} _.
Arguments Err {A} _.

Definition bind {A B} (r : res A) (f : A -> res B) : res B :=
  match r with Ok a => f a | Err e => Err e end.
Definition guard {A} (raise_if : bool) (e : exn) (k : res A) : res A :=
  if raise_if then Err e else k.

Notation "'let*' x ':=' r 'in' k" := (bind r (fun x => k))
  (at level 200, x pattern, r at level 100, k at level 200, right associativity).
Notation "'raise' e 'when' b ';;' k" := (guard b e k)
  (at level 200, e at level 0, b at level 100, k at level 200, right associativity).

Definition is_ok {A} (r : res A) : bool := match r with Ok _ => true | Err _ => false end.

Lemma bind_ok {A B} (r : res A) (f : A -> res B) b :
  bind r f = Ok b -> exists a, r = Ok a /\ f a = Ok b.
Proof. destruct r; simpl; intro H; [eauto | discriminate]. Qed.
Lemma guard_ok {A} (c : bool) e (k : res A) a : guard c e k = Ok a -> c = false /\ k = Ok a.
Proof. destruct c; simpl; intro H; [discriminate | auto]. Qed.

Fixpoint mapM {A B} (f : A -> res B) (l : list A) : res (list B) :=
  match l with
  | nil => Ok nil
  | cons a l' => bind (f a) (fun b => bind (mapM f l') (fun bs => Ok (cons b bs)))
  end.
