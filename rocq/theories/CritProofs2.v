(** * CritProofs2: one step of the construction of trajectories. *)
From Verif Require Import Num Res ListLib SortLib SeqSpec Arr FieldModel ScalarFieldModel ProfileModel ProfileSpec PointsModel PointsSpec CritModel CritSpec CritProofs.
From Coq Require Import Permutation Lia.

Lemma flat_map_app_perm {A B} (f g : A -> list B) l :
  Permutation (flat_map (fun x => f x ++ g x) l) (flat_map f l ++ flat_map g l).
Proof.
  induction l as [|x l IH]; cbn; [constructor|]. rewrite IH.
  rewrite <- !app_assoc. apply Permutation_app_head.
  rewrite !app_assoc. apply Permutation_app_tail. apply Permutation_app_comm.
Qed.
Lemma flat_map_nil {A B} (l : list A) : flat_map (fun _ => @nil B) l = [].
Proof. induction l; cbn; auto. Qed.
Lemma flat_map_one {B} (s : nat) (X : list B) js : NoDup js ->
  flat_map (fun j => if s =? j then X else []) js = if existsb (Nat.eqb s) js then X else [].
Proof.
  induction 1 as [|j js N ND IH]; cbn; [reflexivity|].
  destruct (Nat.eqb_spec s j); cbn; [|exact IH].
  subst j. rewrite IH. destruct (existsb (Nat.eqb s) js) eqn:E; [|apply app_nil_r].
  apply existsb_exists in E. destruct E as (y & I & E). apply Nat.eqb_eq in E. subst. tauto.
Qed.
Lemma fm_swap {C B} (key : C -> nat) (P : C -> list B) ls js : NoDup js -> (forall c, In c ls -> In (key c) js) ->
  Permutation (flat_map (fun j => flat_map (fun c => if key c =? j then P c else []) ls) js) (flat_map P ls).
Proof.
  intros ND. induction ls as [|c ls IH]; intro H; cbn [flat_map].
  - rewrite flat_map_nil. constructor.
  - rewrite flat_map_app_perm. apply Permutation_app; [|apply IH; intros; apply H; right; assumption].
    rewrite flat_map_one by exact ND.
    assert (existsb (Nat.eqb (key c)) js = true) as ->; [|reflexivity].
    apply existsb_exists. exists (key c). split; [apply H; left; reflexivity|apply Nat.eqb_refl].
Qed.
Lemma fm_unique {C B} (key : C -> nat) (P : C -> list B) ls c : NoDup (map key ls) -> In c ls ->
  flat_map (fun x => if key x =? key c then P x else []) ls = P c.
Proof.
  induction ls as [|x ls IH]; intros ND I; [destruct I|]. cbn in ND. inversion ND as [|? ? N1 N2]; subst.
  cbn [flat_map]. destruct I as [->|I].
  - rewrite Nat.eqb_refl. assert (flat_map (fun x => if key x =? key c then P x else []) ls = []) as ->; [|apply app_nil_r].
    clear -N1. induction ls as [|y ls IH]; cbn; [reflexivity|]. destruct (Nat.eqb_spec (key y) (key c)).
    + exfalso; apply N1; left; exact e.
    + apply IH. intro H; apply N1; right; exact H.
  - destruct (Nat.eqb_spec (key x) (key c)); [|apply IH; assumption].
    exfalso. apply N1. rewrite e. apply in_map; exact I.
Qed.
Lemma fm_absent {C B} (key : C -> nat) (P : C -> list B) ls j : existsb (fun c => key c =? j) ls = false ->
  flat_map (fun x => if key x =? j then P x else []) ls = [].
Proof.
  induction ls as [|x ls IH]; cbn; [reflexivity|]. destruct (key x =? j); [discriminate|]. exact IH.
Qed.
Lemma existsb_key {C} (key : C -> nat) ls j : existsb (fun c => key c =? j) ls = true <-> In j (map key ls).
Proof.
  rewrite existsb_exists, in_map_iff. split; intros (c & A & B); exists c.
  - apply Nat.eqb_eq in B. auto.
  - rewrite A. split; [exact B|apply Nat.eqb_refl].
Qed.
Lemma combine_seq_in {A} (l : list A) s j x : In (j, x) (combine (seq s (length l)) l) <-> s <= j /\ nth_error l (j - s) = Some x.
Proof.
  revert s; induction l as [|a l IH]; intro s; cbn [length seq combine In].
  - split; [tauto|]. intros [_ H]. destruct (j - s); discriminate.
  - rewrite IH. split.
    + intros [H|[H1 H2]].
      * injection H as -> ->. rewrite Nat.sub_diag. split; [lia|reflexivity].
      * split; [lia|]. replace (j - s) with (S (j - S s)) by lia. exact H2.
    + intros [H1 H2]. destruct (Nat.eq_dec j s) as [->|N].
      * left. rewrite Nat.sub_diag in H2. injection H2 as ->. reflexivity.
      * right. split; [lia|]. replace (j - s) with (S (j - S s)) in H2 by lia. exact H2.
Qed.
Lemma combine_seq_in0 {A} (l : list A) j x : In (j, x) (combine (seq 0 (length l)) l) <-> nth_error l j = Some x.
Proof. rewrite combine_seq_in, Nat.sub_0_r. split; [tauto|split; [lia|assumption]]. Qed.
Lemma combine_map_fst {A B} (a : list A) (b : list B) : length a = length b -> map fst (combine a b) = a.
Proof. revert b; induction a; intros [|y b] L; cbn in *; try discriminate; f_equal; auto. Qed.
Lemma combine_map_snd {A B} (a : list A) (b : list B) : length a = length b -> map snd (combine a b) = b.
Proof. revert b; induction a; intros [|y b] L; cbn in *; try discriminate; f_equal; auto. Qed.
Lemma combine_seq_snd {A} (l : list A) : map snd (combine (seq 0 (length l)) l) = l.
Proof. apply combine_map_snd. apply seq_length. Qed.
Lemma combine_seq_fst {A} (l : list A) : map fst (combine (seq 0 (length l)) l) = seq 0 (length l).
Proof. apply combine_map_fst. apply seq_length. Qed.
Lemma filter_split_perm {A} (f : A -> bool) l : Permutation (filter f l ++ filter (fun x => negb (f x)) l) l.
Proof.
  induction l as [|x l IH]; cbn; [constructor|]. destruct (f x); cbn; [constructor; exact IH|].
  symmetry. apply Permutation_cons_app. symmetry; exact IH.
Qed.

(** what a matching of the new points with the open lines is, and the lines it gives *)
Record matching (eps : option num) (open : list (list tpoint)) (new : list tpoint) (ls : list (nat * nat)) : Prop := mkM
  { m_row : NoDup (map fst ls); m_col : NoDup (map snd ls);
    m_in : forall i j, In (i, j) ls -> exists p l, nth_error new i = Some p /\ nth_error open j = Some l /\
                                       within eps (dist2 (fst p) (last_pos l));
    m_stable : forall i j p l, nth_error new i = Some p -> nth_error open j = Some l -> within eps (dist2 (fst p) (last_pos l)) ->
      exists i' j' p' l', In (i', j') ls /\ (i' = i \/ j' = j) /\ nth_error new i' = Some p' /\ nth_error open j' = Some l' /\
                          (dist2 (fst p') (last_pos l') <= dist2 (fst p) (last_pos l))%num }.
Lemma step_matching eps closed open new : exists ls, matching eps open new ls /\
  (forall A, In A (fst (one_step eps closed open new)) <->
             In A closed \/ exists j, nth_error open j = Some A /\ ~ In j (map snd ls)) /\
  (forall B, In B (snd (one_step eps closed open new)) <->
             (exists i j p l, In (i, j) ls /\ nth_error new i = Some p /\ nth_error open j = Some l /\ B = l ++ [p]) \/
             (exists i p, nth_error new i = Some p /\ ~ In i (map fst ls) /\ B = [p])) /\
  Permutation (concat (fst (one_step eps closed open new)) ++ concat (snd (one_step eps closed open new)))
              (concat closed ++ concat open ++ new).
Proof.
  unfold one_step.
  set (D := fun i j => match nth_error new i with Some p => match nth_error open j with Some l => Some (dist2 (fst p) (last_pos l)) | None => None end | None => None end).
  set (ls := if ((length new =? 0) || (length open =? 0))%bool then [] else links (S (length new)) (length new) (length open) eps D).
  assert (M : matching eps open new ls).
  { unfold ls. destruct (Nat.eqb_spec (length new) 0) as [E|Hn0]; cbn [orb].
    { split; try constructor; [intros i j []|]. intros i j p l H. destruct new; [destruct i|]; discriminate. }
    destruct (Nat.eqb_spec (length open) 0) as [E|Hm0].
    { split; try constructor; [intros i j []|]. intros i j p l _ H. destruct open; [destruct j|]; discriminate. }
    assert (Hn : 0 < length new) by lia. assert (Hm : 0 < length open) by lia.
    destruct (links_nodup (S (length new)) (length new) (length open) eps D Hn Hm) as [N1 N2].
    assert (K : forall i j d, D i j = Some d -> exists p l, nth_error new i = Some p /\ nth_error open j = Some l /\ d = dist2 (fst p) (last_pos l)).
    { intros i j d. unfold D. destruct (nth_error new i) as [p|], (nth_error open j) as [l|]; try discriminate.
      intro E; injection E as <-. exists p, l; auto. }
    split; auto.
    - intros i j I. apply links_sound in I; auto. destruct I as (_ & _ & d & Hd & W).
      apply K in Hd. destruct Hd as (p & l & Ep & El & ->). exists p, l; auto.
    - intros i j p l Ep El W.
      destruct (links_stable (S (length new)) (length new) (length open) eps D (seq 0 (length new)) i j (dist2 (fst p) (last_pos l)))
        as (i' & j' & d' & I & O & Hd & Le); auto.
      + rewrite seq_length; lia.
      + intros a b H. unfold D in H. apply in_seq. destruct (nth_error new a) eqn:Ea; [|congruence].
        apply nth_error_Some_lt in Ea. lia.
      + apply nth_error_Some_lt in Ep; exact Ep.
      + apply nth_error_Some_lt in El; exact El.
      + unfold D. rewrite Ep, El. reflexivity.
      + apply K in Hd. destruct Hd as (p' & l' & Ep' & El' & ->). exists i', j', p', l'. auto. }
  exists ls. split; [exact M|].
  set (P := fun c : nat * nat => match nth_error new (fst c) with Some p => [p] | None => [] end).
  assert (G : forall i j p l, In (i, j) ls -> nth_error new i = Some p ->
            l ++ flat_map (fun c => if snd c =? j then P c else []) ls = l ++ [p]).
  { intros i j p l I Ep. f_equal. change j with (snd (i, j)). rewrite (fm_unique snd P ls (i, j) (m_col _ _ _ _ M) I).
    unfold P. cbn [fst]. rewrite Ep. reflexivity. }
  cbn [fst snd]. split; [|split].
  - intro A. rewrite in_app_iff. apply or_iff_compat_l. rewrite in_map_iff. split.
    + intros ([j l] & E & I). cbn in E; subst l. apply in_rev, filter_In in I. destruct I as [I U].
      apply combine_seq_in0 in I. exists j; split; [exact I|]. cbn [fst] in U.
      intro H. apply (existsb_key snd) in H. rewrite H in U; discriminate.
    + intros (j & E & U). exists (j, A). split; [reflexivity|]. rewrite <- in_rev. apply filter_In.
      split; [apply combine_seq_in0; exact E|]. cbn [fst]. destruct (existsb (fun c => snd c =? j) ls) eqn:X; [|reflexivity].
      apply (existsb_key snd) in X. tauto.
  - intro B. rewrite in_app_iff, !in_map_iff. split; intros [H|H].
    + left. destruct H as ([j l] & E & I). apply filter_In in I. destruct I as [I U]. cbn [fst snd] in *.
      apply combine_seq_in0 in I. apply (existsb_key snd) in U. apply in_map_iff in U.
      destruct U as ([i j'] & Ej & Il). cbn in Ej; subst j'.
      destruct (m_in _ _ _ _ M i j Il) as (p & l' & Ep & El' & _).
      exists i, j, p, l. split; [exact Il|split; [exact Ep|split; [exact I|]]].
      rewrite <- E. apply (G i j p l Il Ep).
    + right. destruct H as ([i p] & E & I). apply filter_In in I. destruct I as [I U]. cbn [fst snd] in *.
      apply combine_seq_in0 in I. exists i, p. split; [exact I|split; [|symmetry; exact E]].
      intro H. apply (existsb_key fst) in H. rewrite H in U; discriminate.
    + left. destruct H as (i & j & p & l & Il & Ep & El & ->). exists (j, l). split; [apply (G i j p l Il Ep)|].
      apply filter_In. split; [apply combine_seq_in0; exact El|]. cbn [fst]. apply (existsb_key snd).
      apply in_map_iff. exists (i, j); auto.
    + right. destruct H as (i & p & Ep & U & ->). exists (i, p). split; [reflexivity|]. apply filter_In.
      split; [apply combine_seq_in0; exact Ep|]. cbn [fst]. destruct (existsb (fun c => fst c =? i) ls) eqn:X; [|reflexivity].
      apply (existsb_key fst) in X. tauto.
  - set (jl := combine (seq 0 (length open)) open). set (ip := combine (seq 0 (length new)) new).
    set (ul := fun t : nat * list tpoint => existsb (fun c => snd c =? fst t) ls).
    set (up := fun t : nat * tpoint => existsb (fun c => fst c =? fst t) ls).
    rewrite !concat_app, <- app_assoc. apply Permutation_app_head.
    assert (E1 : Permutation (concat (map (fun t : nat * list tpoint => snd t ++ flat_map (fun c => if snd c =? fst t then P c else []) ls) (filter ul jl)))
                  (concat (map snd (filter ul jl)) ++ flat_map P ls)).
    { rewrite <- flat_map_concat_map, flat_map_app_perm, <- flat_map_concat_map. apply Permutation_app_head.
      assert (Q : flat_map (fun t : nat * list tpoint => flat_map (fun c => if snd c =? fst t then P c else []) ls) (filter ul jl)
                  = flat_map (fun j => flat_map (fun c => if snd c =? j then P c else []) ls) (seq 0 (length open))).
      { rewrite <- (combine_seq_fst open). fold jl. clearbody jl. induction jl as [|t jl IH]; cbn [filter map flat_map]; [reflexivity|].
        destruct (ul t) eqn:U; cbn [flat_map]; [rewrite IH; reflexivity|].
        rewrite (fm_absent snd P ls (fst t) U). exact IH. }
      rewrite Q. apply fm_swap; [apply seq_NoDup|]. intros [i j] I. destruct (m_in _ _ _ _ M i j I) as (p & l & _ & El & _).
      apply in_seq. apply nth_error_Some_lt in El. cbn; lia. }
    assert (E2 : Permutation (flat_map P ls ++ map snd (filter (fun t => negb (up t)) ip)) new).
    { transitivity (map snd (filter up ip) ++ map snd (filter (fun t => negb (up t)) ip)).
      2:{ rewrite <- map_app, filter_split_perm. unfold ip. rewrite combine_seq_snd. reflexivity. }
      apply Permutation_app_tail. symmetry.
      assert (Q : map snd (filter up ip) = flat_map (fun i => flat_map (fun c => if fst c =? i then P c else []) ls) (seq 0 (length new))).
      { rewrite <- (combine_seq_fst new). fold ip.
        assert (IN : forall t, In t ip -> nth_error new (fst t) = Some (snd t))
          by (intros [i p] I; apply combine_seq_in0 in I; exact I).
        clearbody ip. induction ip as [|t ip' IH]; cbn [filter map flat_map]; [reflexivity|].
        rewrite <- IH by (intros; apply IN; right; assumption).
        destruct (up t) eqn:U; cbn [map].
        - unfold up in U. apply (existsb_key fst) in U. apply in_map_iff in U. destruct U as (c & Ec & Ic).
          rewrite <- Ec. rewrite (fm_unique fst P ls c (m_row _ _ _ _ M) Ic). unfold P. rewrite Ec.
          rewrite (IN t (or_introl eq_refl)). reflexivity.
        - rewrite (fm_absent fst P ls (fst t) U). reflexivity. }
      rewrite Q. apply fm_swap; [apply seq_NoDup|]. intros [i j] I. destruct (m_in _ _ _ _ M i j I) as (p & l & Ep & _ & _).
      apply in_seq. apply nth_error_Some_lt in Ep. cbn; lia. }
    assert (E3 : concat (map (fun t : nat * tpoint => [snd t]) (filter (fun t => negb (up t)) ip)) = map snd (filter (fun t => negb (up t)) ip)).
    { generalize (filter (fun t => negb (up t)) ip) as l. induction l; cbn; [reflexivity|]. f_equal; assumption. }
    change (fun t : nat * tpoint => negb (existsb (fun c => fst c =? fst t) ls)) with (fun t => negb (up t)).
    change (fun t : nat * list tpoint => negb (existsb (fun c => snd c =? fst t) ls)) with (fun t => negb (ul t)).
    change (fun t : nat * list tpoint => existsb (fun c => snd c =? fst t) ls) with ul.
    rewrite E3. unfold P in E1, E2 at 1. rewrite E1. rewrite <- app_assoc.
    rewrite E2.
    rewrite app_assoc. apply Permutation_app_tail.
    transitivity (concat (map snd (filter (fun t => negb (ul t)) jl)) ++ concat (map snd (filter ul jl))).
    { apply Permutation_app_tail. rewrite map_rev.
      generalize (map snd (filter (fun t => negb (ul t)) jl)) as L. intro L.
      assert (PR : Permutation (rev L) L) by (symmetry; apply Permutation_rev).
      clear -PR. induction PR; cbn; auto.
      - apply Permutation_app_head; assumption.
      - rewrite !app_assoc. apply Permutation_app_tail, Permutation_app_comm.
      - etransitivity; eassumption. }
    rewrite Permutation_app_comm, <- concat_app, <- map_app.
    assert (PR := filter_split_perm ul jl). apply (Permutation_map snd) in PR. unfold jl in PR at 3. rewrite combine_seq_snd in PR.
    revert PR. generalize (map snd (filter ul jl ++ filter (fun t => negb (ul t)) jl)) as L. clear. intros L PR.
    induction PR; cbn; auto.
    + apply Permutation_app_head; assumption.
    + rewrite !app_assoc. apply Permutation_app_tail, Permutation_app_comm.
    + etransitivity; eassumption.
Qed.
