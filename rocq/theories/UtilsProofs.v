(** * UtilsProofs: memoization. *)
From Coq Require Import String.
From Verif Require Import Num Res ListLib UtilsModel UtilsSpec.

Section Memo.
Context {A K V : Type} (K_dec : forall a b : K, {a = b} + {a <> b}) (key : A -> K) (func : nat -> A -> V) (torn : nat -> bool).
Notation step := (mstep K_dec key func torn).
Notation run := (mrun K_dec key func torn).

Lemma cget_in c k v : cget (V:=V) K_dec c k = Some v -> In (k, v) c.
Proof.
  induction c as [|[k' v'] c IH]; cbn; [discriminate|]. destruct (K_dec k k') as [->|]; [intro H; injection H as ->; now left|right; auto].
Qed.
Lemma cget_none c k : cget (V:=V) K_dec c k = None <-> ~ In k (map fst c).
Proof.
  induction c as [|[k' v'] c IH]; cbn; [tauto|]. destruct (K_dec k k') as [->|N]; [split; [discriminate|intuition]|].
  rewrite IH. split; [intros H [E|I]; [congruence|auto]|intros H I; auto].
Qed.

Section Safety.
Variable f : A -> V.
Hypothesis HF : forall p a, func p a = f a.
Hypothesis HK : forall a b, key a = key b -> f a = f b.
Definition gcache (c : list (K * V)) : Prop := forall k v, In (k, v) c -> exists a, key a = k /\ v = f a.
Definition gworld (w : @mworld A K V) : Prop :=
  (forall c, mf w = Good c -> gcache c) /\
  forall p, match mp w p with Off => True | Idle c => gcache c | Writing c a => gcache c /\ cget K_dec c (key a) = Some (f a) end.
Lemma gworld_set w fl p s : gworld w -> (forall c, fl = Good c -> gcache c) ->
  match s with Off => True | Idle c => gcache c | Writing c a => gcache c /\ cget K_dec c (key a) = Some (f a) end -> gworld (set_proc w fl p s).
Proof.
  intros [A1 A2] H1 H2. split; [exact H1|]. intro q. unfold set_proc; cbn. destruct (Nat.eqb q p); [exact H2|apply A2].
Qed.
Lemma gcache_get c a v : gcache c -> cget K_dec c (key a) = Some v -> v = f a.
Proof. intros G E. apply cget_in, G in E. destruct E as (b & E & ->). apply HK; exact E. Qed.
Lemma step_good w e : gworld w -> gworld (fst (step w e)) /\ forall p a v, snd (step w e) = Returned p a v -> v = f a.
Proof.
  intros GW. pose proof GW as [G1 G2]. destruct e as [p|p a|p n|p|p]; cbn [mstep].
  - destruct (mp w p) eqn:E; cbn; try (split; [exact GW|discriminate]).
    destruct (m_load torn (mf w)) as [c|] eqn:L; cbn; [|split; [exact GW|discriminate]].
    split; [|discriminate]. apply gworld_set; auto. unfold m_load in L. destruct (mf w) as [|c'|n] eqn:F.
    + injection L as <-. intros k v [].
    + injection L as <-. apply G1; reflexivity.
    + destruct (torn n); [injection L as <-; intros k v []|discriminate].
  - pose proof (G2 p) as Gp. destruct (mp w p) as [|c|c b] eqn:E; cbn; try (split; [exact GW|discriminate]).
    destruct (cget K_dec c (key a)) as [v|] eqn:C; cbn.
    + split; [exact GW|]. intros q b u H. injection H as <- <- <-. eapply gcache_get; eauto.
    + split; [|discriminate]. apply gworld_set; [exact GW|discriminate|]. split.
      * intros k v [H|H]; [|apply Gp; exact H]. injection H as <- <-. exists a. split; [reflexivity|apply HF].
      * cbn. destruct (K_dec (key a) (key a)); [f_equal; apply HF|congruence].
  - pose proof (G2 p) as Gp. destruct (mp w p) as [|c|c b] eqn:E; cbn; try (split; [exact GW|discriminate]).
    split; [|discriminate]. apply gworld_set; [exact GW|discriminate|exact Gp].
  - pose proof (G2 p) as Gp. destruct (mp w p) as [|c|c b] eqn:E; cbn; try (split; [exact GW|discriminate]).
    destruct Gp as [Gc Gb]. rewrite Gb. cbn. split.
    + apply gworld_set; [exact GW| |exact Gc]. intros c' H; injection H as <-. exact Gc.
    + intros q a v H. injection H as <- <- <-. reflexivity.
  - cbn. split; [|discriminate]. apply gworld_set; [exact GW|exact G1|exact I].
Qed.
Lemma run_good h : forall w, gworld w -> gworld (fst (run w h)) /\ forall p a v, In (Returned p a v) (snd (run w h)) -> v = f a.
Proof.
  induction h as [|e h IH]; intros w G; cbn; [split; [exact G|tauto]|].
  destruct (step_good w e G) as [G1 R1]. destruct (step w e) as [w1 o]. cbn in *.
  destruct (IH w1 G1) as [G2 R2]. destruct (run w1 h) as [w2 os]. cbn in *. split; [exact G2|].
  intros p a v [H|H]; [apply (R1 p a v H)|apply (R2 p a v H)].
Qed.
Lemma init_good : gworld m_init.
Proof. split; cbn; [discriminate|intro; exact I]. Qed.
Lemma memo_safe h p a v : In (Returned p a v) (snd (run m_init h)) -> v = f a.
Proof. apply (run_good h m_init init_good). Qed.
Lemma memo_answers h p c a : mp (fst (run m_init h)) p = Idle c ->
  snd (run (fst (run m_init h)) [MCall p a]) = [Returned p a (f a)] \/
  snd (run (fst (run m_init h)) [MCall p a; MDump p]) = [Computed p a; Returned p a (f a)].
Proof.
  intro E. destruct (run_good h m_init init_good) as [G _]. set (w := fst (run m_init h)) in *. clearbody w.
  pose proof (proj2 G p) as Gp. rewrite E in Gp. cbn. rewrite E. destruct (cget K_dec c (key a)) as [v|] eqn:C.
  - left. cbn. rewrite (gcache_get c a v Gp C). reflexivity.
  - right. cbn. rewrite Nat.eqb_refl. cbn. destruct (K_dec (key a) (key a)); [|congruence]. cbn. rewrite HF. reflexivity.
Qed.
End Safety.

(** no process runs and the file cannot be read: nothing works any more *)
Lemma memo_stuck n h : forall w, torn n = false -> mf w = Torn n -> (forall p, mp w p = Off) ->
  Forall (fun o => o = Nothing \/ exists p, o = Raised p) (snd (run w h)).
Proof.
  induction h as [|e h IH]; intros w T F O; cbn; [constructor|].
  assert (D : exists w1, mf w1 = Torn n /\ (forall p, mp w1 p = Off) /\ exists o, step w e = (w1, o) /\ (o = Nothing \/ exists p, o = Raised p)).
  { destruct e as [p|p a|p m|p|p]; cbn; rewrite ?O; try (exists w; split; [exact F|split; [exact O|]]; eexists; split; [reflexivity|left; reflexivity]).
    - rewrite F. cbn. rewrite T. exists w. split; [exact F|split; [exact O|]]. eexists; split; [reflexivity|right; exists p; reflexivity].
    - eexists. split; [|split; [|eexists; split; [reflexivity|left; reflexivity]]]; cbn; [exact F|]. intro q. destruct (Nat.eqb q p); [reflexivity|apply O]. }
  destruct D as (w1 & F1 & O1 & o & -> & Ho). specialize (IH w1 T F1 O1). destruct (run w1 h) as [w2 os]. cbn in *. constructor; assumption.
Qed.

(** one process that is never killed in a write *)
Notation count_key := (times_computed (V:=V) K_dec key).
Definition calm (w : @mworld A K V) (c : list (K * V)) : Prop :=
  (mf w = Good c \/ (mf w = Absent /\ c = [])) /\ (mp w 0 = Off \/ mp w 0 = Idle c).
Lemma run_app w h1 h2 : run w (h1 ++ h2) = (fst (run (fst (run w h1)) h2), snd (run w h1) ++ snd (run (fst (run w h1)) h2)).
Proof.
  revert w; induction h1 as [|e h1 IH]; intro w; cbn [app mrun]; [cbn; destruct (run w h2); reflexivity|].
  destruct (step w e) as [w1 o]. rewrite (IH w1). destruct (run w1 h1) as [w2 os]. cbn. reflexivity.
Qed.
Lemma count_app k a b : count_key k (a ++ b) = count_key k a + count_key k b.
Proof. unfold times_computed. rewrite filter_app, app_length. reflexivity. Qed.
Lemma calm_step w c o : calm w c -> exists c', calm (fst (run w (events_of o))) c' /\
  (forall p, ~ In (Raised p) (snd (run w (events_of o)))) /\
  forall k, count_key k (snd (run w (events_of o))) + (if cget K_dec c k then 1 else 0) = (if cget K_dec c' k then 1 else 0).
Proof.
  intros [HF HP]. destruct o as [|a|]; cbn [events_of mrun mstep].
  - destruct HP as [HP|HP]; rewrite HP; cbn.
    + assert (L : m_load torn (mf w) = Some c) by (destruct HF as [->|[-> ->]]; reflexivity). rewrite L. cbn.
      exists c. split; [split; [exact HF|right; reflexivity]|]. split; [intros p [H|[]]; discriminate|]. intro k. reflexivity.
    + exists c. split; [split; [exact HF|right; exact HP]|]. split; [intros p [H|[]]; discriminate|]. intro k. reflexivity.
  - destruct HP as [HP|HP]; rewrite HP; cbn.
    + rewrite HP. cbn. exists c. split; [split; [exact HF|left; exact HP]|]. split; [intros p [H|[H|[]]]; discriminate|]. intro k. reflexivity.
    + destruct (cget K_dec c (key a)) as [v|] eqn:C; cbn.
      * rewrite HP. cbn. exists c. split; [split; [exact HF|right; exact HP]|]. split; [intros p [H|[H|[]]]; discriminate|]. intro k. reflexivity.
      * destruct (K_dec (key a) (key a)); [|congruence]. cbn.
        exists ((key a, func 0 a) :: c). split; [split; [left; reflexivity|right; reflexivity]|]. split; [intros p [H|[H|[]]]; discriminate|].
        intro k. unfold times_computed. cbn. destruct (K_dec (key a) k) as [<-|N].
        -- destruct (K_dec (key a) (key a)); [|congruence]. rewrite C. reflexivity.
        -- destruct (K_dec k (key a)); [congruence|]. reflexivity.
  - cbn. exists c. split; [split; [exact HF|left; reflexivity]|]. split; [intros p [H|[]]; discriminate|]. intro k. reflexivity.
Qed.
Lemma calm_run l : forall w c, calm w c ->
  (forall p, ~ In (Raised p) (snd (run w (flat_map events_of l)))) /\
  forall k, count_key k (snd (run w (flat_map events_of l))) + (if cget K_dec c k then 1 else 0) <= 1.
Proof.
  induction l as [|o l IH]; intros w c H; cbn [flat_map]; [cbn; split; [tauto|intro k; destruct (cget K_dec c k); cbn; lia]|].
  destruct (calm_step w c o H) as (c' & H' & R & N). rewrite run_app. cbn [snd]. destruct (IH _ _ H') as [R2 N2]. split.
  - intros p I. apply in_app_iff in I. destruct I as [I|I]; [eapply R; exact I|eapply R2; exact I].
  - intro k. rewrite count_app. specialize (N k). specialize (N2 k). lia.
Qed.
Lemma memo_once l : 
  (forall p, ~ In (Raised p) (snd (run m_init (flat_map events_of l)))) /\
  forall k, count_key k (snd (run m_init (flat_map events_of l))) <= 1.
Proof.
  destruct (calm_run l m_init []) as [A1 A2]; [split; [right; split; reflexivity|left; reflexivity]|].
  split; [exact A1|]. intro k. specialize (A2 k). cbn in A2. lia.
Qed.
End Memo.
