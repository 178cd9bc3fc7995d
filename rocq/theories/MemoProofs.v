(** * MemoProofs: the results of a memoized function. *)
From Coq Require Import List Bool Lia PeanoNat.
From Verif Require Import Res MemoModel MemoSpec.
Import ListNotations.

Section P.
Context {A K V B F : Type}.
Variable keq : forall a b : K, {a = b} + {a <> b}.
Variable key : A -> K.
Variable cd : codec (list (K * V)) B.
Variable fns : F -> A -> res V.
Notation RUN := (run keq key cd fns).
Notation STEP := (step keq key cd fns).
Lemma lookup_in (c : list (K * V)) k v : lookup keq c k = Some v -> In (k, v) c.
Proof. induction c as [|[h w] c IH]; cbn; [discriminate|]. destruct (keq h k) as [->|]; intro H; [injection H as ->; left; reflexivity|right; auto]. Qed.
Lemma store_in (c : list (K * V)) k v h w : In (h, w) (store keq c k v) -> (h = k /\ w = v) \/ In (h, w) c.
Proof.
  induction c as [|[x y] c IH]; cbn; [intros [E|[]]; injection E as -> ->; left; auto|]. destruct (keq x k) as [->|]; intros [E|I].
  - injection E as -> ->. left. auto.
  - right. right. exact I.
  - right. left. exact E.
  - destruct (IH I) as [X|X]; auto.
Qed.
Lemma lookup_store (c : list (K * V)) k v h : lookup keq (store keq c k v) h = if keq k h then Some v else lookup keq c h.
Proof.
  induction c as [|[x y] c IH]; cbn.
  - destruct (keq k h); reflexivity.
  - destruct (keq x k) as [->|N]; cbn.
    + destruct (keq k h); reflexivity.
    + rewrite IH. destruct (keq x h) as [->|]; [|reflexivity]. destruct (keq k h); [congruence|reflexivity].
Qed.
Lemma nth_put {X} (l : list X) p x q y : nth_error (put l p x) q = Some y -> (p = q /\ y = x) \/ (nth_error l q = Some y).
Proof.
  revert p q. induction l as [|z l IH]; intros p q H; [destruct p; cbn in H; right; exact H|]. destruct p, q; cbn in *; auto; try (injection H as ->; auto).
  destruct (IH _ _ H) as [[-> ->]|Q]; auto.
Qed.
Lemma put_same {X} (l : list X) p x y : nth_error l p = Some y -> nth_error (put l p x) p = Some x.
Proof. revert p. induction l as [|z l IH]; intros [|p] H; cbn in *; try discriminate H; [reflexivity|eauto]. Qed.
Lemma put_other {X} (l : list X) p x q : p <> q -> nth_error (put l p x) q = nth_error l q.
Proof. revert p q. induction l as [|z l IH]; intros [|p] [|q] N; cbn; try congruence; [apply IH; congruence]. Qed.
Lemma put_length {X} (l : list X) p x : length (put l p x) = length l.
Proof. revert p. induction l as [|z l IH]; intros [|p]; cbn; auto. Qed.

(** ** one call *)
Lemma call_right fn stop w c a : faithful cd -> tight cd -> told_apart key fn -> results_of key fn c -> file_of key cd fn w ->
  let o := call keq key cd fn stop w c a in
  results_of key fn (o_cache o) /\ file_of key cd fn (o_world o) /\
  (o_res o = fn a \/ (o_called o = true /\ (exists v, fn a = Ok v) /\ exists e, o_res o = Err e)).
Proof.
  intros FA TI TA RC FO. cbv zeta. unfold call; cbv zeta. destruct (lookup keq c (key a)) as [v|] eqn:L.
  - cbn. split; [exact RC|]. split; [exact FO|]. left. apply lookup_in in L. destruct (RC _ _ L) as (b & KB & FB). rewrite <- FB. apply TA. exact KB.
  - destruct (fn a) as [v|e] eqn:FN; [|cbn; split; [exact RC|]; split; [exact FO|]; left; reflexivity].
    assert (RC' : results_of key fn (store keq c (key a) v)).
    { intros k x I. apply store_in in I. destruct I as [[-> ->]|I]; [exists a; auto|apply RC; exact I]. }
    destruct (can_write w); [|cbn; split; [exact RC'|]; split; [exact FO|]; right; split; [reflexivity|]; split; eauto].
    destruct (dump cd (store keq c (key a) v)) as [b e] eqn:D. destruct stop as [n|].
    + cbn. split; [exact RC'|]. split; [|right; split; [reflexivity|]; split; eauto]. intros x X. pose proof (TI (store keq c (key a) v) n x) as T. rewrite D in T. cbn in T.
      rewrite (T X). exact RC'.
    + destruct e as [e|]; cbn.
      * split; [exact RC'|]. split; [|right; split; [reflexivity|]; split; eauto]. intros x X. pose proof (TI (store keq c (key a) v) (length b) x) as T. rewrite D in T. cbn [fst] in T. rewrite firstn_all in T. rewrite (T X). exact RC'.
      * split; [exact RC'|]. split; [intros x X; rewrite (FA _ _ D) in X; injection X as <-; exact RC'|]. left. rewrite lookup_store. destruct (keq (key a) (key a)); [reflexivity|contradiction].
Qed.
Notation good := (consistent key cd fns).
Lemma step_right fn s e : faithful cd -> tight cd -> told_apart key fn -> honest fns fn e -> good fn s ->
  good fn (fst (STEP s e)) /\ forall p f a r b, snd (STEP s e) = Returned p f a r b -> r = fn a \/ (b = true /\ (exists v, fn a = Ok v) /\ exists x, r = Err x).
Proof.
  intros FA TI TA H [FO G]. destruct e as [f|p a|p a n|p a v]; cbn [step].
  - unfold decorate. destruct (file (disk_of s)) as [b|] eqn:FI.
    + destruct (load cd b) as [c|x] eqn:LO.
      * cbn. split; [|discriminate]. split; [unfold file_of in *; cbn; rewrite FI in FO; exact FO|]. intros p g c' N. destruct (Nat.lt_ge_cases p (length (decorated s))) as [L|L].
        -- cbn [decorated] in N. rewrite nth_error_app1 in N by exact L. eapply G. exact N.
        -- cbn [decorated] in N. rewrite nth_error_app2 in N by exact L. destruct (p - length (decorated s)) as [|q]; [|destruct q; discriminate N]. injection N as <- <-. split; [exact H|]. unfold file_of in FO. rewrite FI in FO. exact (FO c LO).
      * assert (Z : forall c0, c0 = None \/ c0 = Some [] -> forall g0, good fn (mkstate (mkworld (Some b) (can_write (disk_of s)) g0) (decorated s ++ [(f, c0)]))).
        { intros c0 C0 g0. split; [unfold file_of in *; cbn; rewrite FI in FO; exact FO|]. intros p g c' N. cbn [decorated] in N. destruct (Nat.lt_ge_cases p (length (decorated s))) as [L|L].
          - rewrite nth_error_app1 in N by exact L. eapply G. exact N.
          - rewrite nth_error_app2 in N by exact L. destruct (p - length (decorated s)) as [|q]; [|destruct q; discriminate N]. destruct C0 as [-> | ->]; [discriminate N|]. injection N as <- <-. split; [exact H|]. intros k v []. }
        destruct x; cbn; (split; [apply Z; auto|discriminate]).
    + cbn. split; [|discriminate]. split; [exact I|]. intros p g c' N. cbn [decorated] in N. destruct (Nat.lt_ge_cases p (length (decorated s))) as [L|L].
      * rewrite nth_error_app1 in N by exact L. eapply G. exact N.
      * rewrite nth_error_app2 in N by exact L. destruct (p - length (decorated s)) as [|q]; [|destruct q; discriminate N]. injection N as <- <-. split; [exact H|]. intros k v [].
  - destruct (nth_error (decorated s) p) as [[f [c|]]|] eqn:N; try (cbn; split; [split; assumption|discriminate]).
    destruct (G _ _ _ N) as [EF RC]. rewrite EF. pose proof (call_right fn None (disk_of s) c a FA TI TA RC FO) as CR. cbv zeta in CR. destruct CR as (C1 & C2 & C3). cbn [fst snd]. split.
    + split; [exact C2|]. cbn [decorated]. intros q g c' N'. apply nth_put in N'. destruct N' as [[_ X]|X]; [injection X as -> ->; auto|eapply G; exact X].
    + intros q g a' r b E. injection E as <- <- <- <- <-. exact C3.
  - destruct (nth_error (decorated s) p) as [[f [c|]]|] eqn:N; try (cbn; split; [split; assumption|discriminate]).
    destruct (G _ _ _ N) as [EF RC]. rewrite EF. pose proof (call_right fn (Some n) (disk_of s) c a FA TI TA RC FO) as CR. cbv zeta in CR. destruct CR as (C1 & C2 & C3). cbn [fst snd]. split; [|discriminate].
    split; [exact C2|]. cbn [decorated]. intros q g c' N'. apply nth_put in N'. destruct N' as [[_ X]|X]; [discriminate X|eapply G; exact X].
  - destruct H.
Qed.
Lemma run_right fn s l p f a r b : faithful cd -> tight cd -> told_apart key fn -> (forall e, In e l -> honest fns fn e) -> good fn s ->
  In (Returned p f a r b) (snd (RUN s l)) -> r = fn a \/ (b = true /\ (exists v, fn a = Ok v) /\ exists x, r = Err x).
Proof.
  intros FA TI TA. revert s. induction l as [|e l IH]; intros s H G I; [destruct I|]. cbn [run] in I. destruct (STEP s e) as [s1 o] eqn:ST.
  destruct (step_right fn s e FA TI TA (H e (or_introl eq_refl)) G) as [G1 O1]. rewrite ST in G1, O1. cbn [fst snd] in G1, O1.
  specialize (IH s1 (fun x X => H x (or_intror X)) G1). destruct (RUN s1 l) as [s2 os]. cbn [snd] in *. destruct I as [->|I]; [eapply O1; reflexivity|auto].
Qed.
(** from an empty directory, or one with a file of this function, whatever happens *)
Lemma memo_right fn w l p f a r b : faithful cd -> tight cd -> told_apart key fn -> (forall e, In e l -> honest fns fn e) -> file_of key cd fn w ->
  In (Returned p f a r b) (snd (RUN (mkstate w []) l)) -> r = fn a \/ (b = true /\ (exists v, fn a = Ok v) /\ exists x, r = Err x).
Proof. intros FA TI TA H FO. apply run_right; try assumption. split; [exact FO|]. intros q g c N. destruct q; discriminate N. Qed.
(** when the results can be saved, exactly the results of the function *)
Definition writes_ok (s : state K V B F) : Prop := can_write (disk_of s) = true.
Lemma step_writes s e : writes_ok s -> writes_ok (fst (STEP s e)).
Proof.
  unfold writes_ok. intro W. destruct e as [f|p a|p a n|p a v]; cbn [step].
  - unfold decorate. destruct (file (disk_of s)) as [b|]; [|exact W]. destruct (load cd b) as [c|[]]; exact W.
  - destruct (nth_error (decorated s) p) as [[f [c|]]|]; try exact W. cbn. unfold call; cbv zeta. destruct (lookup keq c (key a)); [exact W|]. destruct (fns f a); [|exact W]. rewrite W. destruct (dump cd _) as [b [e|]]; reflexivity.
  - destruct (nth_error (decorated s) p) as [[f [c|]]|]; try exact W. cbn. unfold call; cbv zeta. destruct (lookup keq c (key a)); [exact W|]. destruct (fns f a); [|exact W]. rewrite W. destruct (dump cd _) as [b [e|]]; reflexivity.
  - destruct (nth_error (decorated s) p) as [[f [c|]]|]; exact W.
Qed.
Lemma run_exact fn s l p f a r b : faithful cd -> tight cd -> told_apart key fn -> savable cd -> (forall e, In e l -> honest fns fn e) -> good fn s -> writes_ok s ->
  In (Returned p f a r b) (snd (RUN s l)) -> r = fn a.
Proof.
  intros FA TI TA SV. revert s. induction l as [|e l IH]; intros s H G W I; [destruct I|]. cbn [run] in I. destruct (STEP s e) as [s1 o] eqn:ST.
  pose proof (step_right fn s e FA TI TA (H e (or_introl eq_refl)) G) as [G1 O1]. pose proof (step_writes s e W) as W1. rewrite ST in G1, O1, W1. cbn [fst snd] in G1, O1, W1.
  specialize (IH s1 (fun x X => H x (or_intror X)) G1 W1). destruct (RUN s1 l) as [s2 os]. cbn [snd] in *. destruct I as [->|I]; [|auto].
  destruct e as [g|q a'|q a' n|q a' v]; cbn [step] in ST.
  - destruct (decorate cd (disk_of s)) as [w [c|x]]; discriminate ST.
  - destruct (nth_error (decorated s) q) as [[g [c|]]|] eqn:N; try discriminate ST. injection ST as _ <- <- <- <- <-. destruct (proj2 G _ _ _ N) as [EF RC]. rewrite EF.
    unfold call; cbv zeta. destruct (lookup keq c (key a')) as [v|] eqn:L; [cbn; apply lookup_in in L; destruct (RC _ _ L) as (b' & KB & FB); rewrite <- FB; apply TA; exact KB|].
    destruct (fn a') as [v|x] eqn:FN; [|reflexivity]. rewrite W. pose proof (SV (store keq c (key a') v)) as SV'. destruct (dump cd _) as [b' e']. cbn in SV'. subst e'. cbn.
    rewrite lookup_store. destruct (keq (key a') (key a')); [reflexivity|contradiction].
  - destruct (nth_error (decorated s) q) as [[g [c|]]|] eqn:N; discriminate ST.
  - destruct (H _ (or_introl eq_refl)).
Qed.
Lemma memo_exact fn w l p f a r b : faithful cd -> tight cd -> told_apart key fn -> savable cd -> (forall e, In e l -> honest fns fn e) -> file_of key cd fn w -> can_write w = true ->
  In (Returned p f a r b) (snd (RUN (mkstate w []) l)) -> r = fn a.
Proof. intros FA TI TA SV H FO W. apply run_exact; try assumption. split; [exact FO|]. intros q g c N. destruct q; discriminate N. Qed.

(** ** at most one computation *)
Lemma lookup_kept (c : list (K * V)) k v h : lookup keq c h <> None -> lookup keq (store keq c k v) h <> None.
Proof. intro L. rewrite lookup_store. destruct (keq k h); [discriminate|exact L]. Qed.
Lemma call_kept fn stop w c a k : lookup keq c k <> None -> lookup keq (o_cache (call keq key cd fn stop w c a)) k <> None.
Proof.
  intro L. unfold call; cbv zeta. destruct (lookup keq c (key a)); [exact L|]. destruct (fn a); [|exact L]. destruct (can_write w); [|apply lookup_kept; exact L].
  destruct (dump cd _) as [b [e|]]; destruct stop; apply lookup_kept; exact L.
Qed.
(** the decorated function [p] is dead or has the key *)
Definition has (s : state K V B F) (p : nat) (k : K) : Prop := p < length (decorated s) /\ forall f c, nth_error (decorated s) p = Some (f, Some c) -> lookup keq c k <> None.
Lemma step_has s e p k : has s p k -> has (fst (STEP s e)) p k.
Proof.
  intros [L H]. destruct e as [f|q a|q a n|q a v]; cbn [step].
  - assert (Z : forall w c0, has (mkstate w (decorated s ++ [(f, c0)])) p k).
    { intros w c0. split; [cbn; rewrite app_length; lia|]. cbn. rewrite nth_error_app1 by exact L. exact H. }
    destruct (decorate cd (disk_of s)) as [w [c|x]]; apply Z.
  - destruct (nth_error (decorated s) q) as [[f [c|]]|] eqn:N; try (split; assumption). cbn. split; [cbn; rewrite put_length; exact L|]. cbn. intros g c' N'.
    apply nth_put in N'. destruct N' as [[-> X]|X]; [injection X as -> ->; apply call_kept; eapply H; exact N|eapply H; exact X].
  - destruct (nth_error (decorated s) q) as [[f [c|]]|] eqn:N; try (split; assumption). cbn. split; [cbn; rewrite put_length; exact L|]. cbn. intros g c' N'.
    apply nth_put in N'. destruct N' as [[-> X]|X]; [discriminate X|eapply H; exact X].
  - destruct (nth_error (decorated s) q) as [[f [c|]]|] eqn:N; try (split; assumption). cbn. split; [cbn; rewrite put_length; exact L|]. cbn. intros g c' N'.
    apply nth_put in N'. destruct N' as [[-> X]|X]; [|eapply H; exact X]. injection X as -> ->. specialize (H _ _ N). destruct (lookup keq c (key a)); [apply lookup_kept; exact H|exact H].
Qed.
Lemma has_quiet s e p k : has s p k -> computed keq key fns p k (snd (STEP s e)) = false.
Proof.
  intros [L H]. destruct e as [f|q a|q a n|q a v]; cbn [step].
  - destruct (decorate cd (disk_of s)) as [w [c|x]]; reflexivity.
  - destruct (nth_error (decorated s) q) as [[f [c|]]|] eqn:N; try reflexivity. cbn. unfold call; cbv zeta. destruct (Nat.eq_dec p q) as [<-|NE]; [|destruct (o_called _); reflexivity].
    specialize (H _ _ N). destruct (lookup keq c (key a)) eqn:LK; [reflexivity|]. destruct (keq (key a) k) as [E|NE]; [rewrite E in LK; contradiction|]. destruct (o_called _); reflexivity.
  - destruct (nth_error (decorated s) q) as [[f [c|]]|] eqn:N; reflexivity.
  - destruct (nth_error (decorated s) q) as [[f [c|]]|] eqn:N; reflexivity.
Qed.
Lemma run_quiet s l p k : has s p k -> filter (computed keq key fns p k) (snd (RUN s l)) = [].
Proof.
  revert s. induction l as [|e l IH]; intros s H; [reflexivity|]. cbn [run]. pose proof (has_quiet s e p k H) as Q. pose proof (step_has s e p k H) as H1. destruct (STEP s e) as [s1 o].
  specialize (IH s1 H1). destruct (RUN s1 l) as [s2 os]. cbn [snd filter] in *. rewrite Q. exact IH.
Qed.
Lemma computed_has s e p k : computed keq key fns p k (snd (STEP s e)) = true -> has (fst (STEP s e)) p k.
Proof.
  destruct e as [f|q a|q a n|q a v]; cbn [step].
  - destruct (decorate cd (disk_of s)) as [w [c|x]]; discriminate.
  - destruct (nth_error (decorated s) q) as [[f [c|]]|] eqn:N; try discriminate. cbn. destruct (o_called (call keq key cd (fns f) None (disk_of s) c a)) eqn:C; [|discriminate].
    destruct (Nat.eq_dec p q) as [<-|NE]; [|discriminate]. destruct (keq (key a) k) as [E|NE]; [|discriminate]. intro OK. split; [cbn; rewrite put_length; apply nth_error_Some; rewrite N; discriminate|].
    cbn. rewrite (put_same _ _ _ _ N). intros g c' X. injection X as <- <-. unfold call in *; cbv zeta in *. destruct (lookup keq c (key a)) eqn:L; [discriminate C|]. destruct (fns f a) as [v|x]; [|discriminate OK].
    assert (Y : lookup keq (store keq c (key a) v) k <> None) by (rewrite lookup_store, E; destruct (keq k k); [discriminate|contradiction]).
    destruct (can_write (disk_of s)); [|exact Y]. destruct (dump cd _) as [b [x|]]; exact Y.
  - destruct (nth_error (decorated s) q) as [[f [c|]]|] eqn:N; discriminate.
  - destruct (nth_error (decorated s) q) as [[f [c|]]|] eqn:N; discriminate.
Qed.
Lemma memo_once s l p k : length (filter (computed keq key fns p k) (snd (RUN s l))) <= 1.
Proof.
  revert s. induction l as [|e l IH]; intro s; [cbn; lia|]. cbn [run]. pose proof (computed_has s e p k) as C. specialize (IH (fst (STEP s e))). pose proof (run_quiet (fst (STEP s e)) l p k) as Q.
  destruct (STEP s e) as [s1 o]. cbn [fst snd] in *. destruct (RUN s1 l) as [s2 os]. cbn [snd filter] in *. destruct (computed keq key fns p k o); [|exact IH]. rewrite (Q (C eq_refl)). cbn. lia.
Qed.
(** ** kept in the file *)
Lemma run_app s l m : RUN s (l ++ m) = (fst (RUN (fst (RUN s l)) m), snd (RUN s l) ++ snd (RUN (fst (RUN s l)) m)).
Proof.
  revert s. induction l as [|e l IH]; intro s; [cbn; destruct (RUN s m); reflexivity|]. cbn [app run]. destruct (STEP s e) as [s1 o]. rewrite IH.
  destruct (RUN s1 l) as [s2 os]. cbn [fst snd]. destruct (RUN s2 m); reflexivity.
Qed.
(** the file holds the cache of the decorated function p, the last one; or nothing was kept *)
Definition in_file (s : state K V B F) (p : nat) (f : F) (c : list (K * V)) : Prop :=
  nth_error (decorated s) p = Some (f, Some c) /\ length (decorated s) = S p /\ can_write (disk_of s) = true /\
  ((file (disk_of s) = None /\ c = []) \/ exists b, file (disk_of s) = Some b /\ (load cd b = Ok c \/ (load cd b = Err ValueErr /\ c = []))).
Lemma call_in_file s p f c a : faithful cd -> savable cd -> in_file s p f c -> exists c', in_file (fst (STEP s (Call p a))) p f c' /\ (forall k, lookup keq c k <> None -> lookup keq c' k <> None) /\
  (forall v, fns f a = Ok v -> lookup keq c' (key a) <> None).
Proof.
  intros FA SV (N & LN & W & FI). cbn [step]. rewrite N. cbn [fst]. unfold call; cbv zeta. destruct (lookup keq c (key a)) as [v|] eqn:L.
  - exists c. cbn. split; [split; [cbn; apply (put_same _ _ _ _ N)|split; [cbn; rewrite put_length; exact LN|split; [exact W|exact FI]]]|]. split; [auto|]. intros; congruence.
  - destruct (fns f a) as [v|x].
    + rewrite W. pose proof (SV (store keq c (key a) v)) as SV'. destruct (dump cd _) as [b e] eqn:D. cbn in SV'. subst e. exists (store keq c (key a) v). cbn.
      split; [split; [cbn; apply (put_same _ _ _ _ N)|split; [cbn; rewrite put_length; exact LN|split; [reflexivity|]]]|].
      * right. exists b. split; [reflexivity|]. left. apply FA. exact D.
      * split; [intros; apply lookup_kept; assumption|]. intros. rewrite lookup_store. destruct (keq (key a) (key a)); [discriminate|contradiction].
    + exists c. cbn. split; [split; [cbn; apply (put_same _ _ _ _ N)|split; [cbn; rewrite put_length; exact LN|split; [exact W|exact FI]]]|]. split; [auto|]. intros; congruence.
Qed.
Lemma calls_in_file l : forall s p f c, faithful cd -> savable cd -> in_file s p f c -> exists c', in_file (fst (RUN s (map (Call p) l))) p f c' /\ (forall k, lookup keq c k <> None -> lookup keq c' k <> None) /\
  forall a v, In a l -> fns f a = Ok v -> lookup keq c' (key a) <> None.
Proof.
  induction l as [|a l IH]; intros s p f c FA SV I; [exists c; cbn; split; [exact I|]; split; [auto|intros ? ? []]|].
  destruct (call_in_file s p f c a FA SV I) as (c1 & I1 & K1 & V1). cbn [map run]. destruct (STEP s (Call p a)) as [s1 o]. cbn [fst] in I1.
  destruct (IH s1 p f c1 FA SV I1) as (c2 & I2 & K2 & V2). destruct (RUN s1 (map (Call p) l)) as [s2 os]. cbn [fst] in *. exists c2. split; [exact I2|]. split; [auto|].
  intros b v [<-|X] E; [apply K2; eapply V1; exact E|eapply V2; eassumption].
Qed.
Lemma memo_kept s f g l a v : faithful cd -> tight cd -> savable cd -> told_apart key (fns f) -> fns g = fns f -> can_write (disk_of s) = true -> good (fns f) s ->
  (exists c, snd (decorate cd (disk_of s)) = Ok c) -> In a l -> fns f a = Ok v ->
  let p := length (decorated s) in
  exists os, snd (RUN s (Decorate f :: map (Call p) l ++ [Decorate g; Call (S p) a])) = os ++ [Decorated (Ok tt); Returned (S p) g a (Ok v) false].
Proof.
  intros FA TI SV TA FG W G [c D] IL FV p.
  assert (I0 : exists c0, in_file (fst (STEP s (Decorate f))) p f c0).
  { cbn [step]. unfold decorate in *. destruct (file (disk_of s)) as [b|] eqn:FI.
    - destruct (load cd b) as [c1|x] eqn:LO.
      + exists c1. split; [cbn; rewrite nth_error_app2, Nat.sub_diag by lia; reflexivity|]. split; [cbn; rewrite app_length; cbn; unfold p; lia|]. split; [exact W|]. right. exists b. cbn. auto.
      + destruct x; try discriminate D. exists []. split; [cbn; rewrite nth_error_app2, Nat.sub_diag by lia; reflexivity|]. split; [cbn; rewrite app_length; cbn; unfold p; lia|]. split; [exact W|]. right. exists b. cbn. auto.
    - exists []. split; [cbn; rewrite nth_error_app2, Nat.sub_diag by lia; reflexivity|]. split; [cbn; rewrite app_length; cbn; unfold p; lia|]. split; [exact W|]. left. cbn. auto. }
  destruct I0 as [c0 I0]. destruct (calls_in_file l _ p f c0 FA SV I0) as (c1 & I1 & _ & V1). pose proof (V1 a v IL FV) as LK.
  assert (G1 : good (fns f) (fst (RUN s (Decorate f :: map (Call p) l)))).
  { assert (X : forall l' s', good (fns f) s' -> (forall e, In e l' -> honest fns (fns f) e) -> good (fns f) (fst (RUN s' l'))).
    { induction l' as [|e l' IH]; intros s' G' H'; [exact G'|]. cbn [run]. destruct (step_right (fns f) s' e FA TI TA (H' e (or_introl eq_refl)) G') as [G2 _]. destruct (STEP s' e) as [s1 o]. cbn [fst] in G2.
      specialize (IH s1 G2 (fun x X => H' x (or_intror X))). destruct (RUN s1 l'). exact IH. }
    apply X; [exact G|]. intros e [<-|E]; [reflexivity|]. apply in_map_iff in E. destruct E as (x & <- & _). exact I. }
  assert (E : RUN s (Decorate f :: map (Call p) l) = (fst (RUN (fst (STEP s (Decorate f))) (map (Call p) l)), snd (STEP s (Decorate f)) :: snd (RUN (fst (STEP s (Decorate f))) (map (Call p) l)))).
  { cbn [run]. destruct (STEP s (Decorate f)) as [s1 o]. cbn [fst snd]. destruct (RUN s1 _); reflexivity. }
  rewrite E in G1. cbn [fst] in G1. change (exists os, snd (RUN s ((Decorate f :: map (Call p) l) ++ [Decorate g; Call (S p) a])) = os ++ [Decorated (Ok tt); Returned (S p) g a (Ok v) false]).
  rewrite run_app, E. cbn [fst snd]. set (s1 := fst (RUN (fst (STEP s (Decorate f))) (map (Call p) l))) in *. exists (snd (STEP s (Decorate f)) :: snd (RUN (fst (STEP s (Decorate f))) (map (Call p) l))).
  destruct I1 as (N1 & L1 & W1 & FI). f_equal.
  assert (DE : decorate cd (disk_of s1) = (mkworld (file (disk_of s1)) (can_write (disk_of s1)) true, Ok c1)).
  { unfold decorate. destruct FI as [[-> ->]|(b & -> & [-> |[-> ->]])]; reflexivity. }
  cbn [run step]. rewrite DE. cbn [disk_of decorated]. rewrite nth_error_app2 by lia. rewrite L1, Nat.sub_diag. cbn [nth_error]. unfold call.
  destruct (lookup keq c1 (key a)) as [v'|] eqn:LK'; [|contradiction]. cbn. do 3 f_equal. f_equal.
  destruct (proj2 G1 _ _ _ N1) as [_ RC]. apply lookup_in in LK'. destruct (RC _ _ LK') as (b' & KB & FB). rewrite (TA _ _ KB) in FB. congruence.
Qed.
(** ** after an interrupted save *)
Definition broken (s : state K V B F) : Prop :=
  (exists b x, file (disk_of s) = Some b /\ load cd b = Err x /\ x <> ValueErr) /\ forall p f c, nth_error (decorated s) p = Some (f, c) -> c = None.
Lemma step_broken s e : broken s -> broken (fst (STEP s e)) /\ (snd (STEP s e) = Nothing \/ exists x, snd (STEP s e) = Decorated (Err x)).
Proof.
  intros [(b & x & FI & LO & NV) G]. destruct e as [f|p a|p a n|p a v]; cbn [step].
  - assert (DE : decorate cd (disk_of s) = (mkworld (file (disk_of s)) (can_write (disk_of s)) false, Err x)) by (unfold decorate; rewrite FI, LO; destruct x; try contradiction; reflexivity).
    rewrite DE. cbn [fst snd]. split; [|right; eauto]. split; [exists b, x; auto|]. cbn [decorated]. intros p g c N. destruct (Nat.lt_ge_cases p (length (decorated s))) as [L|L].
    + rewrite nth_error_app1 in N by exact L. eapply G. exact N.
    + rewrite nth_error_app2 in N by exact L. destruct (p - length (decorated s)) as [|q]; [injection N as <- <-; reflexivity|destruct q; discriminate N].
  - destruct (nth_error (decorated s) p) as [[f c]|] eqn:N; [rewrite (G _ _ _ N)|]; (split; [split; [exists b, x; auto|exact G]|left; reflexivity]).
  - destruct (nth_error (decorated s) p) as [[f c]|] eqn:N; [rewrite (G _ _ _ N)|]; (split; [split; [exists b, x; auto|exact G]|left; reflexivity]).
  - destruct (nth_error (decorated s) p) as [[f c]|] eqn:N; [rewrite (G _ _ _ N)|]; (split; [split; [exists b, x; auto|exact G]|left; reflexivity]).
Qed.
Lemma run_broken s l o : broken s -> In o (snd (RUN s l)) -> o = Nothing \/ exists x, o = Decorated (Err x).
Proof.
  revert s. induction l as [|e l IH]; intros s BR I; [destruct I|]. cbn [run] in I. destruct (step_broken s e BR) as [B1 O1]. destruct (STEP s e) as [s1 o1]. cbn [fst snd] in *.
  specialize (IH s1 B1). destruct (RUN s1 l) as [s2 os]. cbn [snd] in *. destruct I as [<-|I]; auto.
Qed.
(** one process, interrupted while it saves a new result: nothing works any more on this file *)
Lemma memo_broken w f c a v n l o : truncated cd -> savable cd -> can_write w = true -> lookup keq c (key a) = None -> fns f a = Ok v ->
  n < length (fst (dump cd (store keq c (key a) v))) ->
  In o (snd (RUN (fst (STEP (mkstate w [(f, Some c)]) (Crash 0 a n))) l)) -> o = Nothing \/ exists x, o = Decorated (Err x).
Proof.
  intros TR SV W L FV LN. apply run_broken. cbn [step decorated nth_error fst disk_of]. unfold call; cbv zeta. rewrite L, FV, W. pose proof (TR (store keq c (key a) v) n LN) as T.
  destruct (dump cd _) as [b e]. cbn [fst] in *. split.
  - exists (firstn n b), EOFErr. cbn. split; [reflexivity|]. split; [exact T|discriminate].
  - intros [|[|p]] g c' N; cbn in N; try discriminate N. injection N as <- <-. reflexivity.
Qed.
End P.
