(** * CritProofs: greedy linking of the points of two successive times. *)
From Verif Require Import Num Res ListLib SortLib SeqSpec Arr FieldModel ScalarFieldModel ProfileModel ProfileSpec PointsModel PointsSpec CritModel CritSpec.
From Coq Require Import Permutation Lia.

Lemma olt_trans_ge a b c : olt a b = false -> olt b c = false -> olt a c = false.
Proof.
  destruct a as [a|], b as [b|], c as [c|]; cbn; auto; try discriminate.
  rewrite !qltb_ge. intros; qlra.
Qed.
Lemma olt_irrefl a : olt a a = false.
Proof. destruct a as [a|]; cbn; auto. apply qltb_ge. qlra. Qed.
Lemma olt_false_lt a b : olt a b = true -> olt b a = false.
Proof. destruct a as [a|], b as [b|]; cbn; auto; try discriminate. rewrite qltb_lt, qltb_ge. intros; qlra. Qed.

Lemma amin_spec {A} (f : A -> option num) l best :
  (amin f best l = best \/ In (amin f best l) l) /\
  forall x, x = best \/ In x l -> olt (f x) (f (amin f best l)) = false.
Proof.
  revert best; induction l as [|y l IH]; intro best; cbn [amin].
  - split; [left; reflexivity|]. intros x [->|[]]. apply olt_irrefl.
  - destruct (IH (if olt (f y) (f best) then y else best)) as [M U].
    split.
    + destruct (olt (f y) (f best)); cbn [In]; destruct M as [M|M]; auto.
    + intros x H.
      assert (B : olt (f x) (f (if olt (f y) (f best) then y else best)) = false \/ In x l).
      { destruct H as [->|[->|H]]; [| |right; exact H]; left.
        - destruct (olt (f y) (f best)) eqn:E; [apply olt_false_lt; exact E|apply olt_irrefl].
        - destruct (olt (f x) (f best)) eqn:E; [apply olt_irrefl|exact E]. }
      destruct B as [B|B]; [|apply U; right; exact B].
      apply olt_trans_ge with (1 := B). apply U. left; reflexivity.
Qed.
Lemma argmin2_spec n m D i j : 0 < n -> 0 < m -> argmin2 n m D = (i, j) ->
  i < n /\ j < m /\ forall a b, a < n -> b < m -> olt (D a b) (D i j) = false.
Proof.
  intros Hn Hm E. unfold argmin2 in E.
  destruct (amin_spec (fun c => D (fst c) (snd c)) (list_prod (seq 0 n) (seq 0 m)) (0, 0)) as [M U].
  rewrite E in M, U. cbn [fst snd] in U.
  assert (R : i < n /\ j < m).
  { destruct M as [M|M]; [injection M as -> ->; auto|].
    apply in_prod_iff in M. rewrite !in_seq in M. lia. }
  destruct R as [R1 R2]; split; [exact R1|split; [exact R2|]].
  intros a b Ha Hb. apply (U (a, b)). right. apply in_prod; apply in_seq; lia.
Qed.

(** the links: rows and columns used once, entries within the threshold *)
Lemma links_sound fuel n m eps D i j : 0 < n -> 0 < m -> In (i, j) (links fuel n m eps D) ->
  i < n /\ j < m /\ exists d, D i j = Some d /\ within eps d.
Proof.
  revert D; induction fuel as [|f IH]; intros D Hn Hm I; cbn [links] in I; [destruct I|].
  destruct (argmin2 n m D) as [a b] eqn:E. destruct (argmin2_spec _ _ _ _ _ Hn Hm E) as (Ra & Rb & _).
  destruct (D a b) as [d|] eqn:Ed; [|destruct I].
  destruct (over eps d) eqn:Eo; [destruct I|]. destruct I as [I|I].
  - injection I as <- <-. split; [exact Ra|split; [exact Rb|]]. exists d; split; [exact Ed|].
    destruct eps as [e|]; cbn in *; [apply qltb_ge in Eo; exact Eo|exact Logic.I].
  - destruct (IH _ Hn Hm I) as (A & B & d' & Hd & W). split; [exact A|split; [exact B|]].
    exists d'; split; [|exact W]. unfold kill in Hd.
    destruct ((i =? a) || (j =? b))%bool; [discriminate|exact Hd].
Qed.
Lemma links_killed fuel n m eps D i j i0 j0 : 0 < n -> 0 < m ->
  In (i, j) (links fuel n m eps (kill D i0 j0)) -> i <> i0 /\ j <> j0.
Proof.
  intros Hn Hm I. apply links_sound in I; auto. destruct I as (_ & _ & d & Hd & _).
  unfold kill in Hd. destruct (Nat.eqb_spec i i0), (Nat.eqb_spec j j0); cbn in Hd; try discriminate; auto.
Qed.
Lemma links_nodup fuel n m eps D : 0 < n -> 0 < m ->
  NoDup (map fst (links fuel n m eps D)) /\ NoDup (map snd (links fuel n m eps D)).
Proof.
  revert D; induction fuel as [|f IH]; intros D Hn Hm; cbn [links]; [split; constructor|].
  destruct (argmin2 n m D) as [a b]. destruct (D a b) as [d|]; [|split; constructor].
  destruct (over eps d); [split; constructor|].
  destruct (IH (kill D a b) Hn Hm) as [N1 N2]. cbn [map fst snd].
  split; constructor; auto; intro I; apply in_map_iff in I; destruct I as ([i j] & E & I); cbn in E; subst;
    apply links_killed in I; tauto.
Qed.
(** no entry within the threshold is smaller than those of the links of its row and column *)
Lemma links_stable fuel n m eps D (L : list nat) i j d :
  0 < n -> 0 < m -> length L < fuel -> (forall a b, D a b <> None -> In a L) ->
  i < n -> j < m -> D i j = Some d -> within eps d ->
  exists i' j' d', In (i', j') (links fuel n m eps D) /\ (i' = i \/ j' = j) /\ D i' j' = Some d' /\ (d' <= d)%num.
Proof.
  revert D L; induction fuel as [|f IH]; intros D L Hn Hm HL Al Hi Hj Hd W; [lia|].
  cbn [links]. destruct (argmin2 n m D) as [a b] eqn:E.
  destruct (argmin2_spec _ _ _ _ _ Hn Hm E) as (Ra & Rb & Mn).
  assert (M := Mn i j Hi Hj). rewrite Hd in M.
  destruct (D a b) as [e|] eqn:Ed; [|discriminate M]. cbn in M. apply qltb_ge in M.
  assert (over eps e = false) as ->.
  { destruct eps as [x|]; cbn in *; [apply qltb_ge; qlra|reflexivity]. }
  destruct (Nat.eq_dec a i) as [->|Na].
  { exists i, b, e. split; [left; reflexivity|auto]. }
  destruct (Nat.eq_dec b j) as [->|Nb].
  { exists a, j, e. split; [left; reflexivity|auto]. }
  destruct (IH (kill D a b) (remove Nat.eq_dec a L)) as (i' & j' & d' & I & O & Hd' & Le); auto.
  - assert (In a L) by (apply (Al a b); rewrite Ed; discriminate).
    pose proof (remove_length_lt Nat.eq_dec L a H). lia.
  - intros x y H. unfold kill in H. destruct (Nat.eqb_spec x a); cbn in H; [congruence|].
    apply in_in_remove; [exact n0|]. apply (Al x y). destruct (y =? b); congruence.
  - unfold kill. destruct (Nat.eqb_spec i a), (Nat.eqb_spec j b); try congruence. exact Hd.
  - exists i', j', d'. split; [right; exact I|split; [exact O|split; [|exact Le]]].
    unfold kill in Hd'. destruct ((i' =? a) || (j' =? b))%bool; [discriminate|exact Hd'].
Qed.
