(** * MemoProofs2: shared files, failures, and a concrete format. *)
From Coq Require Import List Bool Lia PeanoNat.
From Verif Require Import Res MemoModel MemoSpec MemoProofs.
Import ListNotations.

Section Q.
Context {A K V B F : Type}.
Variable keq : forall a b : K, {a = b} + {a <> b}.
Variable key : A -> K.
Variable cd : codec (list (K * V)) B.
Variable fns : F -> A -> res V.
Notation RUN := (run keq key cd fns).
Lemma key_refl {X} k (x y : X) : (if keq k k then x else y) = x.
Proof. destruct (keq k k); [reflexivity|contradiction]. Qed.
(** the second function gives the result of the first one *)
Lemma memo_shared f g a v b : faithful cd -> fns f a = Ok v -> dump cd [(key a, v)] = (b, None) ->
  snd (RUN (mkstate (mkworld None true true) []) [Decorate f; Call 0 a; Decorate g; Call 1 a]) = [Decorated (Ok tt); Returned 0 f a (Ok v) true; Decorated (Ok tt); Returned 1 g a (Ok v) false].
Proof.
  intros FA FV D. cbn [run step decorate disk_of file app nth_error decorated]. unfold call; cbn [lookup can_write store]. rewrite FV, D. cbn [lookup]. rewrite key_refl.
  cbn [o_world o_cache o_res o_called put disk_of decorated app]. unfold decorate; cbn [file can_write]. rewrite (FA _ _ D). cbn [nth_error lookup o_res o_called o_cache o_world disk_of decorated app]. rewrite key_refl. reflexivity.
Qed.
(** what the first process computed is lost *)
Lemma memo_lost f a b v w ba bb : faithful cd -> key a <> key b -> fns f a = Ok v -> fns f b = Ok w -> dump cd [(key a, v)] = (ba, None) -> dump cd [(key b, w)] = (bb, None) ->
  snd (dump cd [(key b, w); (key a, v)]) = None ->
  snd (RUN (mkstate (mkworld None true true) []) [Decorate f; Decorate f; Call 0 a; Call 1 b; Decorate f; Call 2 a]) =
    [Decorated (Ok tt); Decorated (Ok tt); Returned 0 f a (Ok v) true; Returned 1 f b (Ok w) true; Decorated (Ok tt); Returned 2 f a (Ok v) true].
Proof.
  intros FA NK FV FW DA DB D2. cbn [run step decorate disk_of file app nth_error decorated can_write]. unfold call; cbn [lookup can_write store]. rewrite FV, DA. cbn [lookup]. rewrite key_refl.
  cbn [o_world o_cache o_res o_called put disk_of decorated app nth_error can_write lookup store]. rewrite FW, DB. cbn [lookup]. rewrite key_refl.
  cbn [o_world o_cache o_res o_called put disk_of decorated app]. unfold decorate; cbn [file can_write]. rewrite (FA _ _ DB). cbn [nth_error lookup disk_of decorated app can_write store].
  destruct (keq (key b) (key a)) as [E|_]; [congruence|]. rewrite FV. cbn [store]. destruct (dump cd [(key b, w); (key a, v)]) as [b2 e] eqn:D. cbn in D2. rewrite D2. cbn [lookup].
  destruct (keq (key b) (key a)) as [E|_]; [congruence|]. rewrite key_refl. reflexivity.
Qed.
(** a result that cannot be saved: the first call raises, the next ones do not *)
Lemma memo_unsaved w f c a v b e : lookup keq c (key a) = None -> fns f a = Ok v -> can_write w = true -> dump cd (store keq c (key a) v) = (b, Some e) ->
  let r := RUN (mkstate w [(f, Some c)]) [Call 0 a; Call 0 a] in
  snd r = [Returned 0 f a (Err e) true; Returned 0 f a (Ok v) false] /\ gc (disk_of (fst r)) = false /\ file (disk_of (fst r)) = Some b.
Proof.
  intros L FV W D. cbv zeta. cbn [run step disk_of decorated nth_error]. unfold call; cbv zeta. rewrite L, FV, W, D. cbn [o_world o_cache o_res o_called put disk_of decorated nth_error].
  rewrite lookup_store, key_refl. cbn. auto.
Qed.
(** the caller modifies a result: the next calls return the modified one *)
Lemma memo_modified w f c a v x : lookup keq c (key a) = Some v ->
  snd (RUN (mkstate w [(f, Some c)]) [Call 0 a; Modify 0 a x; Call 0 a]) = [Returned 0 f a (Ok v) false; Nothing; Returned 0 f a (Ok x) false].
Proof.
  intro L. cbn [run step disk_of decorated nth_error]. unfold call; cbv zeta. rewrite L. cbn [o_world o_cache o_res o_called put disk_of decorated nth_error]. rewrite L. cbn [disk_of decorated nth_error].
  rewrite lookup_store, key_refl. reflexivity.
Qed.
(** the garbage collector after a call that returns, and after a decorator that succeeds *)
Lemma memo_gc fn w c a v : o_res (call keq key cd fn None w c a) = Ok v -> gc (o_world (call keq key cd fn None w c a)) = (if o_called (call keq key cd fn None w c a) then true else gc w).
Proof.
  unfold call; cbv zeta. destruct (lookup keq c (key a)); [reflexivity|]. destruct (fn a); [|discriminate]. destruct (can_write w); [|discriminate].
  destruct (dump cd _) as [b [e|]]; [discriminate|reflexivity].
Qed.
Lemma memo_gc_decorator w c : snd (decorate cd w) = Ok c -> gc (fst (decorate cd w)) = true.
Proof. unfold decorate. destruct (file w) as [b|]; [|reflexivity]. destruct (load cd b) as [x|[]]; cbn; try discriminate; reflexivity. Qed.
End Q.

(** ** a concrete format: the pairs, then an end mark; a pair with the value 0 cannot be saved when [strict] *)
Fixpoint toy_read (l : list (option (nat * nat))) : res (list (nat * nat)) :=
  match l with
  | [] => Err EOFErr
  | [None] => Ok []
  | None :: _ => Err ValueErr
  | Some p :: r => let* c := toy_read r in Ok (p :: c)
  end.
Definition toy (strict : bool) : codec (list (nat * nat)) (option (nat * nat)) :=
  mkcodec _ _ (fun c => if (strict && existsb (fun p => Nat.eqb (snd p) 0) c)%bool then ([], Some TypeErr) else (map Some c ++ [None], None)) toy_read.
Lemma toy_whole c : toy_read (map Some c ++ [None]) = Ok c.
Proof. induction c as [|p c IH]; [reflexivity|]. cbn [map app toy_read]. rewrite IH. reflexivity. Qed.
Lemma toy_part c : forall n, n < length (map Some c ++ [None]) -> toy_read (firstn n (map Some c ++ [None])) = Err EOFErr.
Proof.
  induction c as [|p c IH]; intros [|n] L; try reflexivity; [cbn in L; lia|]. cbn [map app firstn toy_read]. cbn [map app length] in L. rewrite IH by lia. reflexivity.
Qed.
Lemma toy_faithful b : faithful (toy b).
Proof. intros c l E. cbn in E. destruct (b && _)%bool; [discriminate E|]. injection E as <-. apply toy_whole. Qed.
Lemma toy_tight b : tight (toy b).
Proof.
  intros c n x E. cbn in E. destruct (b && _)%bool; [destruct n; discriminate E|]. cbn [fst] in E. destruct (Nat.lt_ge_cases n (length (map Some c ++ [None]))) as [L|L].
  - rewrite (toy_part c n L) in E. discriminate E.
  - rewrite firstn_all2 in E by exact L. rewrite toy_whole in E. injection E as <-. reflexivity.
Qed.
Lemma toy_savable : savable (toy false).
Proof. intro c. reflexivity. Qed.
Lemma toy_truncated : truncated (toy false).
Proof. intros c n L. apply toy_part. exact L. Qed.
