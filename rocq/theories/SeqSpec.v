(** * SeqSpec: vocabulary for selecting elements of a list by their position. *)
From Verif Require Import Num Res ListLib SortLib.
Require Import Sorted.

(** [l'] is made of exactly the elements of [l] whose position satisfies [P], in the same order *)
Definition keeps {A} (P : nat -> Prop) (l l' : list A) : Prop :=
  exists o, StronglySorted lt o /\ (forall i, In i o <-> i < length l /\ P i) /\
            Forall2 (fun i x => nth_error l i = Some x) o l'.
(** a correct result of numpy's argsort, whatever it does with ties *)
Definition is_argsort (asort : list num -> list nat) : Prop :=
  forall l, Permutation (asort l) (seq 0 (length l)) /\ nondecreasing (gather (qz 0) (asort l) l).

Lemma argsort_is : is_argsort argsort.
Proof. intro l; split; [apply argsort_perm | apply argsort_sorted]. Qed.

Lemma ssorted_map_S o : StronglySorted lt o -> StronglySorted lt (map S o).
Proof.
  induction 1; cbn; constructor; auto.
  rewrite Forall_forall in *. intros x I. apply in_map_iff in I. destruct I as (y & <- & I). specialize (H0 y I); lia.
Qed.

Lemma keeps_ext {A} (P Q : nat -> Prop) (l l' : list A) :
  (forall i, i < length l -> (P i <-> Q i)) -> keeps P l l' -> keeps Q l l'.
Proof.
  intros E (o & So & Io & F). exists o; split; [exact So|split; [|exact F]].
  intro i. rewrite Io. split; intros [L H]; split; auto; apply E; auto.
Qed.

Lemma keeps_keep {A} (filt : list bool) (l : list A) : length filt = length l ->
  keeps (fun i => nth i filt false = true) l (keep filt l).
Proof.
  revert l; induction filt as [|b f IH]; intros [|a l] L; cbn in L; try discriminate.
  - exists []. split; [constructor|split; [|constructor]]. intro i; cbn; split; [tauto|intros [H _]; lia].
  - injection L as L. destruct (IH l L) as (o & So & Io & F).
    assert (F' : Forall2 (fun i x => nth_error (a :: l) i = Some x) (map S o) (keep f l))
      by (clear -F; induction F; cbn; constructor; auto).
    destruct b; cbn [keep].
    + exists (0 :: map S o); split; [|split].
      * constructor; [apply ssorted_map_S; exact So|]. rewrite Forall_forall; intros x I.
        apply in_map_iff in I; destruct I as (y & <- & _); lia.
      * intro i; cbn [In length]. split.
        -- intros [<-|I]; [split; [lia|reflexivity]|]. apply in_map_iff in I; destruct I as (y & <- & I).
           apply Io in I; destruct I; split; [lia|assumption].
        -- intros [Hi Hb]. destruct i; [left; reflexivity|right]. apply in_map, Io. split; [lia|exact Hb].
      * constructor; [reflexivity|exact F'].
    + exists (map S o); split; [apply ssorted_map_S; exact So|split].
      * intro i; cbn [length]. split.
        -- intro I. apply in_map_iff in I; destruct I as (y & <- & I).
           apply Io in I; destruct I; split; [lia|assumption].
        -- intros [Hi Hb]. destruct i; [discriminate Hb|]. apply in_map, Io. split; [lia|exact Hb].
      * exact F'.
Qed.

Lemma keeps_seq {A} (f : nat -> bool) (l : list A) :
  keeps (fun i => f i = true) l (keep (map f (seq 0 (length l))) l).
Proof.
  apply keeps_ext with (P := fun i => nth i (map f (seq 0 (length l))) false = true).
  - intros i L. rewrite (nth_indep _ false (f 0)) by (rewrite map_length, seq_length; exact L).
    rewrite map_nth, seq_nth by exact L. reflexivity.
  - apply keeps_keep. rewrite map_length, seq_length; reflexivity.
Qed.

(** the selection is unique *)
Lemma ssorted_ext o o' : StronglySorted lt o -> StronglySorted lt o' -> (forall i, In i o <-> In i o') -> o = o'.
Proof.
  intro S1; revert o'; induction S1 as [|a o S1 IH F1]; intros o' S2 E.
  - destruct o' as [|b o']; [reflexivity|]. destruct (E b) as [_ H]; destruct H; left; reflexivity.
  - destruct S2 as [|b o' S2 F2].
    + destruct (E a) as [H _]; destruct H; left; reflexivity.
    + rewrite Forall_forall in *.
      assert (a = b).
      { destruct (proj1 (E a) (or_introl eq_refl)) as [H|H]; [auto|].
        destruct (proj2 (E b) (or_introl eq_refl)) as [H'|H']; [auto|].
        apply F2 in H; apply F1 in H'; lia. }
      subst b; f_equal. apply IH; [exact S2|]. intro i; split; intro I.
      * destruct (proj1 (E i) (or_intror I)) as [H|H]; [|exact H]. subst; apply F1 in I; lia.
      * destruct (proj2 (E i) (or_intror I)) as [H|H]; [|exact H]. subst; apply F2 in I; lia.
Qed.
Lemma keeps_unique {A} (P : nat -> Prop) (l a b : list A) : keeps P l a -> keeps P l b -> a = b.
Proof.
  intros (o & S1 & I1 & F1) (o' & S2 & I2 & F2).
  assert (o = o') by (apply ssorted_ext; auto; intro i; rewrite I1, I2; reflexivity). subst o'.
  clear -F1 F2. revert b F2; induction F1; intros b F2; inversion F2; subst; [reflexivity|].
  f_equal; [congruence|auto].
Qed.
Lemma keep_const {A} (l : list A) : keep (repeat true (length l)) l = l.
Proof. induction l; cbn; congruence. Qed.
Lemma keeps_all {A} (P : nat -> Prop) (l l' : list A) : (forall i, i < length l -> P i) -> keeps P l l' -> l' = l.
Proof.
  intros H K. apply (keeps_unique P l); [exact K|].
  apply keeps_ext with (P := fun i => nth i (repeat true (length l)) false = true).
  - intros i L. split; intros _; [apply H; exact L|].
    rewrite (nth_indep _ false true) by (rewrite repeat_length; exact L). apply nth_repeat.
  - pose proof (keeps_keep (repeat true (length l)) l (repeat_length _ _)) as K2. rewrite keep_const in K2; exact K2.
Qed.
Lemma Forall2_len {A B} (R : A -> B -> Prop) a b : Forall2 R a b -> length a = length b.
Proof. induction 1; cbn; congruence. Qed.
Lemma keeps_length {A B} (P : nat -> Prop) (l a : list A) (m b : list B) :
  length l = length m -> keeps P l a -> keeps P m b -> length a = length b.
Proof.
  intros L (o & S1 & I1 & F1) (o' & S2 & I2 & F2).
  assert (o = o') by (apply ssorted_ext; auto; intro i; rewrite I1, I2, L; reflexivity). subst o'.
  apply Forall2_len in F1; apply Forall2_len in F2; lia.
Qed.
Lemma keeps_combine {A B} (P : nat -> Prop) (l a : list A) (m b : list B) :
  length l = length m -> keeps P l a -> keeps P m b -> keeps P (combine l m) (combine a b).
Proof.
  intros L (o & S1 & I1 & F1) (o' & S2 & I2 & F2).
  assert (o = o') by (apply ssorted_ext; auto; intro i; rewrite I1, I2, L; reflexivity). subst o'.
  exists o; split; [exact S1|split].
  - intro i. rewrite I1, combine_length, L, Nat.min_id. reflexivity.
  - clear -F1 F2. revert b F2. induction F1 as [|i x o a E F IH]; intros b F2; inversion F2; subst; cbn; constructor; auto.
    clear -E H1. revert m E H1. revert i. induction l as [|u l IH]; intros [|i] [|w m] E H; cbn in *; try discriminate; auto.
    congruence.
Qed.
