(** * VpropProofs: the labelled zones are the sets of cells joined by paths. *)
From Coq Require Import Lia.
From Verif Require Import Num Res ListLib SortLib Arr FieldModel ScalarFieldModel VectorFieldModel FieldSpec VpropModel VpropSpec.

Lemma cell_eqb_eq c d : cell_eqb c d = true <-> c = d.
Proof.
  destruct c as [a b], d as [a' b']. unfold cell_eqb. cbn. rewrite andb_true_iff, !Nat.eqb_eq. split; [intros [-> ->]; reflexivity|intros [= -> ->]; auto].
Qed.
Lemma sides_iff c d : sides c d = true <-> adjacent c d.
Proof. unfold sides, adjacent. rewrite orb_true_iff, !andb_true_iff, !orb_true_iff, !Nat.eqb_eq. tauto. Qed.
Lemma sides_sym c d : sides c d = sides d c.
Proof.
  apply eq_true_iff_eq. rewrite !sides_iff. unfold adjacent. split; intros [[? ?]|[? ?]]; intuition.
Qed.
Lemma filter_length_le {A} (p q : A -> bool) l : (forall a, In a l -> p a = true -> q a = true) -> length (filter p l) <= length (filter q l).
Proof.
  induction l as [|a l IH]; intro H; [reflexivity|]. cbn. specialize (IH (fun b I => H b (or_intror I))).
  destruct (p a) eqn:P; [rewrite (H a (or_introl eq_refl) P); cbn; lia|destruct (q a); cbn; lia].
Qed.
Lemma filter_same {A} (p q : A -> bool) l : (forall a, In a l -> p a = true -> q a = true) -> length (filter q l) <= length (filter p l) -> forall a, In a l -> p a = q a.
Proof.
  induction l as [|a l IH]; intros H L b I; [contradiction|]. cbn in L.
  assert (L2 := filter_length_le p q l (fun b I => H b (or_intror I))).
  assert (E : p a = q a).
  { destruct (p a) eqn:P; [now rewrite (H a (or_introl eq_refl) P)|]. destruct (q a) eqn:Q; [exfalso; cbn [length] in L; lia|reflexivity]. }
  destruct I as [<-|I]; [exact E|]. apply IH; auto; [intros; apply H; auto; now right|]. rewrite E in L. destruct (q a) eqn:Q; rewrite ?Q in L; cbn [length] in L; lia.
Qed.
Lemma filter_length_all {A} (p : A -> bool) l : length (filter p l) <= length l.
Proof. induction l as [|a l IH]; cbn; [lia|]. destruct (p a); cbn; lia. Qed.
Section Label.
  Variables (all : list cell) (ok : cell -> bool) (c : cell).
  Hypothesis Hc : In c all.
  Hypothesis Ok0 : ok c = true.
  Let z k := grown k all ok (filter (cell_eqb c) all).
  Lemma z_in_all k d : In d (z k) -> In d all.
  Proof using All. destruct k; cbn; intro H; now apply filter_In in H. Qed.
  Lemma z_ok k d : In d (z k) -> ok d = true.
  Proof using All. destruct k; cbn; intro H; apply filter_In in H; destruct H as [_ H]; [apply cell_eqb_eq in H; now subst|]. apply andb_true_iff in H. tauto. Qed.
  Lemma z_next k d : In d (z (S k)) <-> In d all /\ ok d = true /\ (In d (z k) \/ exists e, In e (z k) /\ sides d e = true).
  Proof using All.
    cbn. unfold grow. rewrite filter_In, andb_true_iff, orb_true_iff, !existsb_exists. fold (z k). split.
    - intros (A & B & [(e & E1 & E2)|(e & E1 & E2)]); (split; [exact A|]; split; [exact B|]); [apply cell_eqb_eq in E2; subst; now left|right; eauto].
    - intros (A & B & [E|(e & E1 & E2)]); (split; [exact A|]; split; [exact B|]); [left; exists d; split; [exact E|now apply cell_eqb_eq]|right; eauto].
  Qed.
  Lemma z_grows k d : In d (z k) -> In d (z (S k)).
  Proof using All. intro H. apply z_next. split; [eapply z_in_all; eauto|]. split; [eapply z_ok; eauto|now left]. Qed.
  Lemma z_joined k d : In d (z k) -> joined (fun e => In e all /\ ok e = true) c d.
  Proof using All.
    revert d. induction k as [|k IH]; intros d H.
    - cbn in H. apply filter_In in H. destruct H as [_ H]. apply cell_eqb_eq in H. subst. constructor. auto.
    - apply z_next in H. destruct H as (A & B & [H|(e & E1 & E2)]); [now apply IH|]. econstructor; [apply IH; eauto| |now split]. apply sides_iff. now rewrite sides_sym.
  Qed.
  (** each set is a filter of all the cells *)
  Definition f k : cell -> bool := match k with 0 => cell_eqb c | S k => fun d => (ok d && (existsb (cell_eqb d) (z k) || existsb (sides d) (z k)))%bool end.
  Lemma z_filter k : z k = filter (f k) all.
  Proof using All. destruct k; reflexivity. Qed.
  Lemma f_grows k d : In d all -> f k d = true -> f (S k) d = true.
  Proof using All.
    intros I H. assert (X : In d (z k)) by (rewrite z_filter; apply filter_In; auto). apply z_grows in X. rewrite z_filter in X. now apply filter_In in X.
  Qed.
  Lemma z_stable k : (forall d, In d (z (S k)) -> In d (z k)) -> forall n d, k <= n -> In d (z n) -> In d (z k).
  Proof using All.
    intros S0 n. induction n as [|n IH]; intros d L H; [now replace k with 0 by lia|].
    destruct (Nat.eq_dec k (S n)) as [->|]; [exact H|]. apply S0. apply z_next. apply z_next in H. destruct H as (A & B & D). split; [exact A|]. split; [exact B|].
    destruct D as [D|(e & E1 & E2)]; [left; apply IH; [lia|exact D]|right; exists e; split; [apply IH; [lia|exact E1]|exact E2]].
  Qed.
  Lemma z_long k : (exists j, j <= k /\ forall d, In d (z (S j)) -> In d (z j)) \/ k < length (z k).
  Proof using All.
    induction k as [|k IH].
    - right. rewrite z_filter. cbn [f]. assert (X : In c (filter (cell_eqb c) all)) by (apply filter_In; split; [exact Hc|now apply cell_eqb_eq]). destruct (filter _ all); [contradiction|cbn; lia].
    - destruct IH as [(j & Lj & H)|IH]; [left; exists j; split; [lia|exact H]|].
      destruct (Nat.le_gt_cases (length (z (S k))) (length (z k))) as [L|L]; [|right; lia]. left. exists k. split; [lia|]. intros d H.
      rewrite !z_filter in *. apply filter_In in H. destruct H as [I H]. apply filter_In. split; [exact I|]. rewrite (filter_same (f k) (f (S k)) all); auto. intros a Ia. now apply f_grows.
  Qed.
  Lemma component_joined d : In d (component all ok c) <-> joined (fun e => In e all /\ ok e = true) c d.
  Proof using All.
    unfold component. change (grown (length all) all ok (filter (cell_eqb c) all)) with (z (length all)). split; [apply z_joined|].
    assert (S0 : forall d, In d (z (S (length all))) -> In d (z (length all))).
    { destruct (z_long (length all)) as [(j & Lj & H)|H].
      - intros e I. assert (X := z_stable j H (S (length all)) e ltac:(lia) I). clear I. revert X. induction Lj; auto. intro X. apply z_grows. auto.
      - exfalso. rewrite z_filter in H. assert (X : length (filter (f (length all)) all) <= length all) by (apply filter_length_all). lia. }
    intro J. induction J as [P|d e J IH A P].
    - clear S0. generalize (length all) as n. induction n; [|now apply z_grows]. rewrite z_filter. apply filter_In. split; [exact Hc|now apply cell_eqb_eq].
    - apply S0. apply z_next. destruct P as [P1 P2]. split; [exact P1|]. split; [exact P2|]. right. exists d. split; [exact IH|]. rewrite sides_sym. now apply sides_iff.
  Qed.
End Label.
