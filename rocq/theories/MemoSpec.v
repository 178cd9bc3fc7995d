(** * MemoSpec: kept results, independently of how they are kept. *)
From Coq Require Import List PeanoNat.
From Verif Require Import Res MemoModel.
Import ListNotations.

(** what has been wholly written is read back *)
Definition faithful {C B} (cd : codec C B) : Prop := forall c b, dump cd c = (b, None) -> load cd b = Ok c.
(** nothing else than the saved cache can be read in a part of what is written *)
Definition tight {C B} (cd : codec C B) : Prop := forall c n x, load cd (firstn n (fst (dump cd c))) = Ok x -> x = c.
(** every cache can be saved *)
Definition savable {C B} (cd : codec C B) : Prop := forall c, snd (dump cd c) = None.
(** a part of what is written looks like a truncated file *)
Definition truncated {C B} (cd : codec C B) : Prop := forall c n, n < length (fst (dump cd c)) -> load cd (firstn n (fst (dump cd c))) = Err EOFErr.
(** the arguments that have the same key give the same result *)
Definition told_apart {A K V} (key : A -> K) (fn : A -> res V) : Prop := forall a b, key a = key b -> fn a = fn b.
(** the pairs of a cache are results of the function *)
Definition results_of {A K V} (key : A -> K) (fn : A -> res V) (c : list (K * V)) : Prop := forall k v, In (k, v) c -> exists a, key a = k /\ fn a = Ok v.
(** there is no file, or what can be read in it are results of the function *)
Definition file_of {A K V B} (key : A -> K) (cd : codec (list (K * V)) B) (fn : A -> res V) (w : world B) : Prop :=
  match file w with None => True | Some b => forall c, load cd b = Ok c -> results_of key fn c end.
(** the file and the caches of the processes that run hold results of the function *)
Definition consistent {A K V B F} (key : A -> K) (cd : codec (list (K * V)) B) (fns : F -> A -> res V) (fn : A -> res V) (s : state K V B F) : Prop :=
  file_of key cd fn (disk_of s) /\ forall p f c, nth_error (decorated s) p = Some (f, Some c) -> fns f = fn /\ results_of key fn c.
(** a history of one function, the results of which are not modified by the caller *)
Definition honest {A V F} (fns : F -> A -> res V) (fn : A -> res V) (e : event A V F) : Prop :=
  match e with Decorate f => fns f = fn | Modify _ _ _ => False | _ => True end.
(** the number of calls of the function by the decorated function number [p], with the arguments of key [k], that gave a result *)
Definition computed {A K V F} (keq : forall a b : K, {a = b} + {a <> b}) (key : A -> K) (fns : F -> A -> res V) (p : nat) (k : K) (o : observed A V F) : bool :=
  match o with Returned q f a _ true => if Nat.eq_dec p q then if keq (key a) k then is_ok (fns f a) else false else false | _ => false end.
