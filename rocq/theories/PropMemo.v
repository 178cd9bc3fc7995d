(** * PropMemo: functions whose results are kept in a file, for all histories of processes, calls and interruptions (C196-C200).
    Statements, examples and counterexamples; the proofs are in MemoProofs*.v.  The vocabulary is in MemoSpec. *)
From Coq Require Import List Bool Lia PeanoNat.
From Verif Require Import Res MemoModel MemoSpec MemoProofs MemoProofs2.
Import ListNotations.

Definition square (_ : unit) (n : nat) : res nat := match n with 7 => Err ValueErr | _ => Ok (n * n) end.
Notation session := (run Nat.eq_dec (fun n : nat => n) (toy false) square).

(** ** C196 *)
Theorem C196_result {A K V B F : Type} (keq : forall a b : K, {a = b} + {a <> b}) (key : A -> K) (cd : codec (list (K * V)) B) (fns : F -> A -> res V) fn w l p f a r b :
  faithful cd -> tight cd -> told_apart key fn -> (forall e, In e l -> honest fns fn e) -> file_of key cd fn w ->
  In (Returned p f a r b) (snd (run keq key cd fns (mkstate w []) l)) ->
  r = fn a \/ (b = true /\ (exists v, fn a = Ok v) /\ exists x, r = Err x).
Proof. exact (memo_right keq key cd fns fn w l p f a r b). Qed.
Print Assumptions C196_result.

Theorem C196_exact_result {A K V B F : Type} (keq : forall a b : K, {a = b} + {a <> b}) (key : A -> K) (cd : codec (list (K * V)) B) (fns : F -> A -> res V) fn w l p f a r b :
  faithful cd -> tight cd -> told_apart key fn -> savable cd -> (forall e, In e l -> honest fns fn e) -> file_of key cd fn w -> can_write w = true ->
  In (Returned p f a r b) (snd (run keq key cd fns (mkstate w []) l)) -> r = fn a.
Proof. exact (memo_exact keq key cd fns fn w l p f a r b). Qed.
Print Assumptions C196_exact_result.

Example C196_example : faithful (toy false) /\ tight (toy false) /\ savable (toy false) /\ told_apart (fun n : nat => n) (square tt) /\
  snd (session (mkstate (mkworld None true true) []) [Decorate tt; Call 0 3; Call 0 7; Crash 0 4 1; Decorate tt]) =
    [Decorated (Ok tt); Returned 0 tt 3 (Ok 9) true; Returned 0 tt 7 (Err ValueErr) true; Nothing; Decorated (Err EOFErr)].
Proof.
  split; [apply toy_faithful|]. split; [apply toy_tight|]. split; [apply toy_savable|]. split; [|reflexivity]. intros a b E. cbn in E. subst. reflexivity.
Qed.

(** ** C197 *)
Theorem C197_once {A K V B F : Type} (keq : forall a b : K, {a = b} + {a <> b}) (key : A -> K) (cd : codec (list (K * V)) B) (fns : F -> A -> res V) s l p k :
  length (filter (computed keq key fns p k) (snd (run keq key cd fns s l))) <= 1.
Proof. exact (memo_once keq key cd fns s l p k). Qed.
Print Assumptions C197_once.

Theorem C197_kept {A K V B F : Type} (keq : forall a b : K, {a = b} + {a <> b}) (key : A -> K) (cd : codec (list (K * V)) B) (fns : F -> A -> res V) s f g l a v :
  faithful cd -> tight cd -> savable cd -> told_apart key (fns f) -> fns g = fns f -> can_write (disk_of s) = true -> consistent key cd fns (fns f) s ->
  (exists c, snd (decorate cd (disk_of s)) = Ok c) -> In a l -> fns f a = Ok v ->
  let p := length (decorated s) in
  exists os, snd (run keq key cd fns s (Decorate f :: map (Call p) l ++ [Decorate g; Call (S p) a])) = os ++ [Decorated (Ok tt); Returned (S p) g a (Ok v) false].
Proof. exact (memo_kept keq key cd fns s f g l a v). Qed.
Print Assumptions C197_kept.

Example C197_example : snd (session (mkstate (mkworld None true true) []) [Decorate tt; Call 0 3; Call 0 3; Call 0 4; Decorate tt; Call 1 3]) =
  [Decorated (Ok tt); Returned 0 tt 3 (Ok 9) true; Returned 0 tt 3 (Ok 9) false; Returned 0 tt 4 (Ok 16) true; Decorated (Ok tt); Returned 1 tt 3 (Ok 9) false].
Proof. reflexivity. Qed.

(** ** C198: an interruption during a save *)
Theorem C198_interrupted_refuted {A K V B F : Type} (keq : forall a b : K, {a = b} + {a <> b}) (key : A -> K) (cd : codec (list (K * V)) B) (fns : F -> A -> res V) w f c a v n l o :
  truncated cd -> savable cd -> can_write w = true -> lookup keq c (key a) = None -> fns f a = Ok v -> n < length (fst (dump cd (store keq c (key a) v))) ->
  In o (snd (run keq key cd fns (fst (step keq key cd fns (mkstate w [(f, Some c)]) (Crash 0 a n))) l)) -> o = Nothing \/ exists x, o = Decorated (Err x).
Proof. exact (memo_broken keq key cd fns w f c a v n l o). Qed.
Print Assumptions C198_interrupted_refuted.

Example C198_example : truncated (toy false) /\ savable (toy false) /\
  snd (session (mkstate (mkworld None true true) []) [Decorate tt; Call 0 3; Crash 0 4 2; Decorate tt; Call 1 3; Decorate tt]) =
    [Decorated (Ok tt); Returned 0 tt 3 (Ok 9) true; Nothing; Decorated (Err EOFErr); Nothing; Decorated (Err EOFErr)].
Proof. split; [apply toy_truncated|]. split; [apply toy_savable|reflexivity]. Qed.

(** ** C199: a file shared by two functions or two processes *)
Theorem C199_two_functions_refuted {A K V B F : Type} (keq : forall a b : K, {a = b} + {a <> b}) (key : A -> K) (cd : codec (list (K * V)) B) (fns : F -> A -> res V) f g a v b :
  faithful cd -> fns f a = Ok v -> dump cd [(key a, v)] = (b, None) ->
  snd (run keq key cd fns (mkstate (mkworld None true true) []) [Decorate f; Call 0 a; Decorate g; Call 1 a]) =
    [Decorated (Ok tt); Returned 0 f a (Ok v) true; Decorated (Ok tt); Returned 1 g a (Ok v) false].
Proof. exact (memo_shared keq key cd fns f g a v b). Qed.
Print Assumptions C199_two_functions_refuted.

Theorem C199_two_processes_refuted {A K V B F : Type} (keq : forall a b : K, {a = b} + {a <> b}) (key : A -> K) (cd : codec (list (K * V)) B) (fns : F -> A -> res V) f a b v w ba bb :
  faithful cd -> key a <> key b -> fns f a = Ok v -> fns f b = Ok w -> dump cd [(key a, v)] = (ba, None) -> dump cd [(key b, w)] = (bb, None) ->
  snd (dump cd [(key b, w); (key a, v)]) = None ->
  snd (run keq key cd fns (mkstate (mkworld None true true) []) [Decorate f; Decorate f; Call 0 a; Call 1 b; Decorate f; Call 2 a]) =
    [Decorated (Ok tt); Decorated (Ok tt); Returned 0 f a (Ok v) true; Returned 1 f b (Ok w) true; Decorated (Ok tt); Returned 2 f a (Ok v) true].
Proof. exact (memo_lost keq key cd fns f a b v w ba bb). Qed.
Print Assumptions C199_two_processes_refuted.

(** the function [true] doubles, the function [false] adds one *)
Definition two (f : bool) (n : nat) : res nat := Ok (if f then 2 * n else S n).
Example C199_example : two true 5 = Ok 10 /\ two false 5 = Ok 6 /\
  snd (run Nat.eq_dec (fun n : nat => n) (toy false) two (mkstate (mkworld None true true) []) [Decorate true; Call 0 5; Decorate false; Call 1 5]) =
    [Decorated (Ok tt); Returned 0 true 5 (Ok 10) true; Decorated (Ok tt); Returned 1 false 5 (Ok 10) false].
Proof. repeat split. Qed.

(** ** C200: failures, modified results and the garbage collector *)
Theorem C200_collector_partial {A K V B : Type} (keq : forall a b : K, {a = b} + {a <> b}) (key : A -> K) (cd : codec (list (K * V)) B) (fn : A -> res V) w c a v :
  o_res (call keq key cd fn None w c a) = Ok v ->
  gc (o_world (call keq key cd fn None w c a)) = (if o_called (call keq key cd fn None w c a) then true else gc w).
Proof. exact (memo_gc keq key cd fn w c a v). Qed.
Print Assumptions C200_collector_partial.

Theorem C200_collector_decorator_partial {K V B : Type} (cd : codec (list (K * V)) B) w c : snd (decorate cd w) = Ok c -> gc (fst (decorate cd w)) = true.
Proof. exact (memo_gc_decorator cd w c). Qed.
Print Assumptions C200_collector_decorator_partial.

Theorem C200_unsaved_refuted {A K V B F : Type} (keq : forall a b : K, {a = b} + {a <> b}) (key : A -> K) (cd : codec (list (K * V)) B) (fns : F -> A -> res V) w f c a v b e :
  lookup keq c (key a) = None -> fns f a = Ok v -> can_write w = true -> dump cd (store keq c (key a) v) = (b, Some e) ->
  let r := run keq key cd fns (mkstate w [(f, Some c)]) [Call 0 a; Call 0 a] in
  snd r = [Returned 0 f a (Err e) true; Returned 0 f a (Ok v) false] /\ gc (disk_of (fst r)) = false /\ file (disk_of (fst r)) = Some b.
Proof. exact (memo_unsaved keq key cd fns w f c a v b e). Qed.
Print Assumptions C200_unsaved_refuted.

Theorem C200_modified_refuted {A K V B F : Type} (keq : forall a b : K, {a = b} + {a <> b}) (key : A -> K) (cd : codec (list (K * V)) B) (fns : F -> A -> res V) w f c a v x :
  lookup keq c (key a) = Some v ->
  snd (run keq key cd fns (mkstate w [(f, Some c)]) [Call 0 a; Modify 0 a x; Call 0 a]) = [Returned 0 f a (Ok v) false; Nothing; Returned 0 f a (Ok x) false].
Proof. exact (memo_modified keq key cd fns w f c a v x). Qed.
Print Assumptions C200_modified_refuted.

(** 0 cannot be saved *)
Example C200_example : snd (run Nat.eq_dec (fun n : nat => n) (toy true) square (mkstate (mkworld None true true) []) [Decorate tt; Call 0 3; Call 0 0; Call 0 0; Call 0 4]) =
  [Decorated (Ok tt); Returned 0 tt 3 (Ok 9) true; Returned 0 tt 0 (Err TypeErr) true; Returned 0 tt 0 (Ok 0) false; Returned 0 tt 4 (Err TypeErr) true].
Proof. reflexivity. Qed.
