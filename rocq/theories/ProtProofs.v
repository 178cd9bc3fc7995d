From Coq Require Import List Bool ZArith Lia.
From Verif Require Import Res ProtModel ProtSpec.
Import ListNotations.

Lemma slot_eqb_spec a b : Bool.reflect (a = b) (slot_eqb a b).
Proof. destruct a, b; cbn; constructor; congruence. Qed.
Lemma put_same {V} (d : disk V) f c : put d f c f = c.
Proof. unfold put. destruct f; reflexivity. Qed.
Lemma put_other {V} (d : disk V) f g c : g <> f -> put d f c g = d g.
Proof. unfold put. destruct (slot_eqb_spec g f); congruence. Qed.

Lemma last_any {A} (l : list A) a b : l <> [] -> last l a = last l b.
Proof. induction l as [|x [|y l] IH]; intro H; [contradiction H; reflexivity|reflexivity|]. change (last (y :: l) a = last (y :: l) b). apply IH. discriminate. Qed.

Section Traces.
Context {P V : Type}.
Variable w : work P V.
Variable o : proto P.
Variable mem : bool -> Z * Z.
Variable I : disk V -> Prop.

(** [v] is computed from what the disk holds *)
Definition from (d : disk V) (f : slot) (v : V) : Prop :=
  match f with
  | Raw => False
  | Cln => exists r, d Raw = Some (Whole r) /\ w_clean w (par o) r = Ok v
  | Mean => exists r c, d Raw = Some (Whole r) /\ w_clean w (par o) r = Ok c /\ w_mean w (par o) c = Ok v
  | Pod => exists c, d Cln = Some (Whole c) /\ w_pod w (par o) c = Ok v
  | Rec => exists x, d Pod = Some (Whole x) /\ w_rec w (par o) false x = Ok v
  | RecDet => exists x, d Pod = Some (Whole x) /\ w_rec w (par o) true x = Ok v
  | Traj => exists x n, d Rec = Some (Whole x) /\ w_traj w (par o) n x = Ok v
  | TrajDet => exists x n, d RecDet = Some (Whole x) /\ w_traj w (par o) n x = Ok v
  end.
Hypothesis Iput : forall d f v, I d -> from d f v -> I (put d f (Some (Whole v))).

Definition grows (d e : disk V) : Prop := forall f, d f <> None -> e f <> None.
Inductive steps : disk V -> list (disk V) -> disk V -> Prop :=
| Snil d : steps d [] d
| Scons d b e l x : I e -> grows d e -> steps e l x -> steps d (b :: e :: l) x.
Lemma steps_app d l e m x : steps d l e -> steps e m x -> steps d (l ++ m) x.
Proof. induction 1; intro H'; [exact H'|]. cbn. econstructor; auto. Qed.
Lemma grows_refl d : grows d d.
Proof. intros f H; exact H. Qed.
Lemma grows_put d f v : grows d (put d f (Some (Whole v))).
Proof. intros g H. unfold put. destruct (slot_eqb g f); [discriminate|exact H]. Qed.
Lemma steps_grows d l x : steps d l x -> grows d x.
Proof. induction 1; [apply grows_refl|]. intros f F. apply IHsteps. apply H0. exact F. Qed.
Lemma steps_I d l x : I d -> steps d l x -> I x.
Proof. intros H S. revert H. induction S; auto. Qed.
Lemma steps_nth d l x k : I d -> steps d l x -> I (nth (2 * k) (d :: l) (last (d :: l) d)).
Proof.
  intros H St. revert k H. induction St as [d|d b e l x Ie G St IH]; intros k H.
  - destruct k; cbn; [exact H|]. replace (k + S (k + 0)) with (S (2 * k)) by lia. cbn [nth]. destruct (k + (k + 0)); exact H.
  - destruct k; [exact H|]. replace (2 * S k) with (S (S (2 * k))) by lia. cbn [nth].
    specialize (IH k Ie). change (last (d :: b :: e :: l) d) with (last (e :: l) d). rewrite (last_any (e :: l) d e) by discriminate.
    exact IH.
Qed.

Definition trace (x : list (disk V) * running V * res unit) := fst (fst x).
Definition final (x : list (disk V) * running V * res unit) := dsk (snd (fst x)).
Definition safe (m : prog V) : Prop := forall s, I (dsk s) -> steps (dsk s) (trace (m s)) (final (m s)).
Definition gives (m : prog V) (f : slot) : Prop := forall s, snd (m s) = Ok tt -> final (m s) f <> None.

Lemma safe_skip : safe skip.
Proof. intros s H. constructor. Qed.
Lemma safe_seq m n : safe m -> safe n -> safe (seq m n).
Proof.
  intros A B s H. specialize (A s H). unfold seq. destruct (m s) as [[l t] [u|e]] eqn:E; cbn in A |- *; [|exact A].
  pose proof (B t (steps_I _ _ _ H A)) as B'. destruct (n t) as [[l' u'] r] eqn:F. cbn in B' |- *. eapply steps_app; eauto.
Qed.
Lemma safe_there f m n : safe m -> safe n -> safe (there f m n).
Proof. intros A B s H. unfold there. destruct (dsk s f); auto. Qed.
Lemma safe_export f v s : I (dsk s) -> from (dsk s) f v -> steps (dsk s) (trace (export f v s)) (final (export f v s)).
Proof. intros H F. cbn. constructor; [apply Iput; assumption|apply grows_put|constructor]. Qed.
Lemma safe_prepare : safe (prepare_data w o).
Proof.
  intros s H. unfold prepare_data, import. destruct (dsk s Raw) as [[v|]|] eqn:E; try constructor.
  unfold calc. destruct (w_clean w (par o) v) as [c|] eqn:C; [|constructor]. destruct (w_mean w (par o) c) as [m|] eqn:M; [|constructor].
  cbn. constructor; [apply Iput; [exact H|cbn; eauto]|apply grows_put|]. constructor; [|apply grows_put|constructor].
  apply Iput; [apply Iput; [exact H|cbn; eauto]|]. cbn. exists v, c. auto.
Qed.
Lemma safe_pod : safe (pod_decomp w o).
Proof.
  intros s H. unfold pod_decomp, import. destruct (dsk s Cln) as [[v|]|] eqn:E; try constructor.
  unfold calc. destruct (w_pod w (par o) v) as [c|] eqn:C; [|constructor]. apply safe_export; [exact H|cbn; eauto].
Qed.
Lemma safe_rec det : safe (pod_reconstr w o det).
Proof.
  intros s H. unfold pod_reconstr, import. destruct (dsk s Pod) as [[v|]|] eqn:E; try constructor.
  unfold calc. destruct (w_rec w (par o) det v) as [c|] eqn:C; [|constructor]. apply safe_export; [exact H|destruct det; cbn; eauto].
Qed.
Lemma safe_traj det : safe (CP_detection w o mem det).
Proof.
  intros s H. unfold CP_detection, import. destruct (dsk s (if det then RecDet else Rec)) as [[v|]|] eqn:E; try constructor.
  destruct (thread_limit _ _ _) as [n|]; [|constructor].
  unfold calc. destruct (w_traj w (par o) n v) as [c|] eqn:C; [|constructor]. apply (safe_export _ _ (mkrun (dsk s) n)); [exact H|destruct det; cbn; eauto].
Qed.
Lemma safe_recompute : safe (recompute_everything w o mem).
Proof. repeat apply safe_seq; auto using safe_prepare, safe_pod, safe_rec, safe_traj. Qed.
Lemma safe_compute : safe (compute_everything w o mem).
Proof.
  unfold compute_everything. apply safe_seq.
  - repeat first [apply safe_there|apply safe_seq]; auto using safe_prepare, safe_pod, safe_rec, safe_traj, safe_skip.
  - destruct (detailled o); repeat first [apply safe_there|apply safe_seq]; auto using safe_rec, safe_traj, safe_skip.
Qed.

(** what is there at the end *)
Lemma gives_prepare : gives (prepare_data w o) Cln.
Proof.
  intros s H. unfold prepare_data, import in *. destruct (dsk s Raw) as [[v|]|] eqn:E; try discriminate H.
  unfold calc in *. destruct (w_clean w (par o) v); try discriminate H. destruct (w_mean w (par o) _); try discriminate H. cbn. discriminate.
Qed.
Lemma gives_pod : gives (pod_decomp w o) Pod.
Proof.
  intros s H. unfold pod_decomp, import in *. destruct (dsk s Cln) as [[v|]|] eqn:E; try discriminate H.
  unfold calc in *. destruct (w_pod w (par o) v); try discriminate H. cbn. discriminate.
Qed.
Lemma gives_rec det : gives (pod_reconstr w o det) (if det then RecDet else Rec).
Proof.
  intros s H. unfold pod_reconstr, import in *. destruct (dsk s Pod) as [[v|]|] eqn:E; try discriminate H.
  unfold calc in *. destruct (w_rec w (par o) det v); try discriminate H. destruct det; cbn; discriminate.
Qed.
Lemma gives_traj det : gives (CP_detection w o mem det) (if det then TrajDet else Traj).
Proof.
  intros s H. unfold CP_detection, import in *. destruct (dsk s (if det then RecDet else Rec)) as [[v|]|] eqn:E; try discriminate H.
  destruct (thread_limit _ _ _) as [n|]; try discriminate H.
  unfold calc in *. destruct (w_traj w (par o) n v); try discriminate H. destruct det; cbn; discriminate.
Qed.
End Traces.

Section All.
Context {P V : Type}.
Variable w : work P V.
Variable o : proto P.
Variable mem : bool -> Z * Z.
Notation any := (fun _ : disk V => True).
Lemma seq_ok (m n : prog V) s : snd (seq m n s) = Ok tt -> exists t, snd (m s) = Ok tt /\ t = snd (fst (m s)) /\ snd (n t) = Ok tt /\ final (seq m n s) = final (n t) /\ trace (seq m n s) = trace (m s) ++ trace (n t).
Proof.
  unfold seq. destruct (m s) as [[l t] [[]|e]] eqn:E; cbn; [|discriminate]. destruct (n t) as [[l' u] r] eqn:F. cbn. intros ->. exists t. rewrite F. auto.
Qed.
Definition mono (m : prog V) : Prop := forall s f, dsk s f <> None -> final (m s) f <> None.
Lemma safe_mono (m : prog V) : safe any m -> mono m.
Proof. intros S s f H. apply (steps_grows any _ _ _ (S s Logic.I) f H). Qed.
Lemma gives_seq_l (m n : prog V) f : gives m f -> mono n -> gives (seq m n) f.
Proof. intros G M s H. apply seq_ok in H as (t & A & -> & B & -> & _). apply M. apply G. exact A. Qed.
Lemma gives_seq_r (m n : prog V) f : gives n f -> gives (seq m n) f.
Proof. intros G s H. apply seq_ok in H as (t & A & -> & B & -> & _). apply G. exact B. Qed.
Lemma gives_there f g (m n : prog V) : (g = f \/ gives m f) -> mono m -> gives n f -> gives (there g m n) f.
Proof. intros A M B s H. unfold there in *. destruct (dsk s g) eqn:E; [|auto]. destruct A as [->|A]; [|auto]. apply M. congruence. Qed.
Ltac mo := apply safe_mono; repeat first [apply safe_there|apply safe_seq|apply safe_prepare|apply safe_pod|apply safe_rec|apply safe_traj|apply safe_skip]; intros; exact Logic.I.
Lemma gives_compute f : In f (results (detailled o)) -> gives (compute_everything w o mem) f.
Proof.
  intro H. unfold compute_everything.
  assert (D : In f [Cln; Pod; Rec; Traj] \/ (detailled o = true /\ (f = RecDet \/ f = TrajDet))).
  { unfold results in H. apply in_app_iff in H as [H|H]; [left; exact H|right]. destruct (detailled o); [split; [reflexivity|]|contradiction H]. cbn in H. intuition auto. }
  destruct D as [D|(-> & D)].
  - apply gives_seq_l; [|destruct (detailled o); mo].
    cbn in D. destruct D as [<-|[<-|[<-|[<-|[]]]]].
    + apply gives_there; [auto|mo|]. apply gives_seq_l; [apply gives_prepare|mo].
    + apply gives_there; [|mo|]; [right; apply gives_there; [auto|mo|]; apply gives_seq_l; [apply gives_pod|mo]|].
      apply gives_seq_r, gives_seq_l; [apply gives_pod|mo].
    + pose proof (gives_rec w o false) as R. cbn in R.
      apply gives_there; [right|mo|]. apply gives_there; [right|mo|]. apply gives_there; [auto|mo|].
      * apply gives_seq_l; [exact R|mo].
      * apply gives_seq_r, gives_seq_l; [exact R|mo].
      * apply gives_seq_r, gives_seq_r, gives_seq_l; [exact R|mo].
    + pose proof (gives_traj w o mem false) as R. cbn in R.
      apply gives_there; [right|mo|]. apply gives_there; [right|mo|]. apply gives_there; [right|mo|]. apply gives_there; [auto|mo|exact R].
      all: repeat apply gives_seq_r; exact R.
  - apply gives_seq_r. destruct D as [->| ->].
    + pose proof (gives_rec w o true) as R. cbn in R. apply gives_there; [auto|mo|]. apply gives_seq_l; [exact R|mo].
    + pose proof (gives_traj w o mem true) as R. cbn in R. apply gives_there; [right; apply gives_there; [auto|mo|exact R]|mo|]. apply gives_seq_r. exact R.
Qed.
Lemma gives_recompute f : In f (results false) -> gives (recompute_everything w o mem) f.
Proof.
  intro H. unfold recompute_everything. cbn in H. pose proof (gives_rec w o false) as R. pose proof (gives_traj w o mem false) as T. cbn in R, T.
  destruct H as [<-|[<-|[<-|[<-|[]]]]].
  - apply gives_seq_l; [apply gives_prepare|mo].
  - apply gives_seq_r, gives_seq_l; [apply gives_pod|mo].
  - apply gives_seq_r, gives_seq_r, gives_seq_l; [exact R|mo].
  - apply gives_seq_r, gives_seq_r, gives_seq_r. exact T.
Qed.
(** when all the results are there, nothing is done *)
Lemma compute_nothing s : (forall f, In f (results (detailled o)) -> dsk s f <> None) -> compute_everything w o mem s = ([], s, Ok tt).
Proof.
  intro H. assert (A := H Cln). assert (B := H Pod). assert (C := H Rec). assert (D := H Traj). unfold results in *.
  unfold compute_everything, seq, there.
  destruct (dsk s Cln) eqn:E1; [|exfalso; apply A; [cbn; auto|reflexivity]].
  destruct (dsk s Pod) eqn:E2; [|exfalso; apply B; [cbn; auto|reflexivity]].
  destruct (dsk s Rec) eqn:E3; [|exfalso; apply C; [cbn; auto|reflexivity]].
  destruct (dsk s Traj) eqn:E4; [|exfalso; apply D; [cbn; auto|reflexivity]].
  unfold skip. destruct (detailled o) eqn:K; [|reflexivity].
  destruct (dsk s RecDet) eqn:E5; [|exfalso; apply (H RecDet); [cbn; auto 9|exact E5]].
  destruct (dsk s TrajDet) eqn:E6; [|exfalso; apply (H TrajDet); [cbn; auto 9|exact E6]].
  reflexivity.
Qed.
End All.
