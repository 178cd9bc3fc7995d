(** * MemoModel: functions whose results are kept in a file (utils/memoization.py, memoize_to_file 29-56).
    Simplified: the arguments are one value of [A] and [key] is pickle.dumps((args, kwargs)); a result is one value of [V], and changing in place an
    object returned by a call changes the one kept in the cache, as they are the same.  The function has no other effect than its result or exception.  pickle and gzip are the two
    functions of [codec].  A write is not mixed with the write of another process; it can be interrupted after any number of bytes. *)
From Coq Require Import List Bool.
From Verif Require Import Res.
Import ListNotations.

(** pickle.dump in a gzip file: what is written, and the exception that stops it.  pickle.load of a gzip file: ValueErr stands for the IOError and
    ValueError that are caught *)
Record codec (C B : Type) : Type := mkcodec { dump : C -> list B * option exn; load : list B -> res C }.
Arguments dump {C B} _ _. Arguments load {C B} _ _.

Section Memo.
Context {A K V B : Type}.
Variable keq : forall a b : K, {a = b} + {a <> b}.
Variable key : A -> K.
Variable cd : codec (list (K * V)) B.

Fixpoint lookup (c : list (K * V)) (k : K) : option V := match c with [] => None | (h, v) :: r => if keq h k then Some v else lookup r k end.
(** cache[key] = value *)
Fixpoint store (c : list (K * V)) (k : K) (v : V) : list (K * V) := match c with [] => [(k, v)] | (h, w) :: r => if keq h k then (h, v) :: r else (h, w) :: store r k v end.

(** the disk holds the file or not; it can be written or not; the garbage collector is enabled or not (that of
    the process of the last event, when there are several) *)
Record world : Type := mkworld { file : option (list B); can_write : bool; gc : bool }.
(** the decorator (32-39) *)
Definition decorate (w : world) : world * res (list (K * V)) :=
  match file w with
  | None => (mkworld (file w) (can_write w) true, Ok [])
  | Some b =>
    match load cd b with
    | Ok c => (mkworld (file w) (can_write w) true, Ok c)
    | Err ValueErr => (mkworld (file w) (can_write w) true, Ok [])
    | Err e => (mkworld (file w) (can_write w) false, Err e)
    end
  end.
(** what one call gives: the world, the cache of the process, the result, and whether the function was called *)
Record outcome : Type := mkout { o_world : world; o_cache : list (K * V); o_res : res V; o_called : bool }.
(** the call (41-49); [stop] is the number of bytes after which the process is interrupted, if it is *)
Definition call (fn : A -> res V) (stop : option nat) (w : world) (c : list (K * V)) (a : A) : outcome :=
  match lookup c (key a) with
  | Some v => mkout w c (Ok v) false
  | None =>
    match fn a with
    | Err e => mkout w c (Err e) true
    | Ok v =>
      let c' := store c (key a) v in
      if can_write w then
        let (b, e) := dump cd c' in
        match stop, e with
        | Some n, _ => mkout (mkworld (Some (firstn n b)) true false) c' (Err GenericErr) true
        | None, Some x => mkout (mkworld (Some b) true false) c' (Err x) true
        | None, None => mkout (mkworld (Some b) true true) c' (match lookup c' (key a) with Some r => Ok r | None => Err GenericErr end) true
        end
      else mkout (mkworld (file w) false false) c' (Err ValueErr) true
    end
  end.
End Memo.
Arguments world : clear implicits.
Arguments outcome : clear implicits.

(** ** Histories: processes that decorate and call functions on the same file *)
Section History.
Context {A K V B F : Type}.
Variable keq : forall a b : K, {a = b} + {a <> b}.
Variable key : A -> K.
Variable cd : codec (list (K * V)) B.
(** the functions *)
Variable fns : F -> A -> res V.

Inductive event : Type :=
| Decorate (f : F)                    (** a new decorated function (in any process); they are numbered from 0 *)
| Call (p : nat) (a : A)              (** a call of the decorated function number [p] *)
| Crash (p : nat) (a : A) (n : nat)   (** a call interrupted after [n] bytes, when it writes *)
| Modify (p : nat) (a : A) (v : V).   (** the caller modifies in place the result of this call *)
(** a decorated function: the function and its cache, None when the process is dead *)
Record state : Type := mkstate { disk_of : world B; decorated : list (F * option (list (K * V))) }.
Fixpoint put {X} (l : list X) (p : nat) (x : X) : list X :=
  match l, p with [], _ => [] | _ :: r, O => x :: r | y :: r, S q => y :: put r q x end.
(** the events that give something: a result for a call, with the number of the decorated function, or the failure of the decorator *)
Inductive observed : Type := Returned (p : nat) (f : F) (a : A) (r : res V) (called : bool) | Decorated (r : res unit) | Nothing.
Definition step (s : state) (e : event) : state * observed :=
  match e with
  | Decorate f =>
    match decorate cd (disk_of s) with
    | (w, Ok c) => (mkstate w (decorated s ++ [(f, Some c)]), Decorated (Ok tt))
    | (w, Err x) => (mkstate w (decorated s ++ [(f, None)]), Decorated (Err x))
    end
  | Call p a =>
    match nth_error (decorated s) p with
    | Some (f, Some c) =>
      let o := call keq key cd (fns f) None (disk_of s) c a in
      (mkstate (o_world o) (put (decorated s) p (f, Some (o_cache o))), Returned p f a (o_res o) (o_called o))
    | _ => (s, Nothing)
    end
  | Crash p a n =>
    match nth_error (decorated s) p with
    | Some (f, Some c) =>
      let o := call keq key cd (fns f) (Some n) (disk_of s) c a in
      (mkstate (o_world o) (put (decorated s) p (f, None)), Nothing)
    | _ => (s, Nothing)
    end
  | Modify p a v =>
    match nth_error (decorated s) p with
    | Some (f, Some c) => (mkstate (disk_of s) (put (decorated s) p (f, Some (match lookup keq c (key a) with Some _ => store keq c (key a) v | None => c end))), Nothing)
    | _ => (s, Nothing)
    end
  end.
Fixpoint run (s : state) (l : list event) : state * list observed :=
  match l with
  | [] => (s, [])
  | e :: r => let (s1, o) := step s e in let (s2, os) := run s1 r in (s2, o :: os)
  end.
End History.
Arguments event : clear implicits.
Arguments state : clear implicits.
Arguments observed : clear implicits.
