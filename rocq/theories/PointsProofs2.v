(** * PointsProofs2: removal, insertion, units, histories of point sets. *)
From Verif Require Import Num Res ListLib SortLib SeqSpec Arr FieldModel ScalarFieldModel FieldSpec FieldProofs2 ProfileModel PointsModel PointsSpec PointsProofs.

(** ** np.delete *)
Lemma norm_ind_spec n i k : norm_ind n i = Some k <-> designates n i k.
Proof.
  unfold norm_ind, designates.
  destruct (Z.leb_spec 0 i); cbn [andb].
  - destruct (Z.ltb_spec i (Z.of_nat n)).
    + split; [intro E; injection E as <-; lia|]. intros (L & [E|E]); f_equal; lia.
    + destruct (Z.ltb_spec i 0); cbn [andb]; [lia|]. split; [discriminate|]. intros (L & [E|E]); lia.
  - destruct (Z.ltb_spec i 0); cbn [andb]; [|lia]. destruct (Z.leb_spec (- Z.of_nat n) i).
    + split; [intro E; injection E as <-; lia|]. intros (L & [E|E]); f_equal; lia.
    + split; [discriminate|]. intros (L & [E|E]); lia.
Qed.
Lemma norm_ind_none n i : norm_ind n i = None <-> ~ index_ok n i.
Proof.
  destruct (norm_ind n i) as [k|] eqn:E.
  - split; [discriminate|]. intro H; destruct H. apply norm_ind_spec in E. unfold designates, index_ok in *. lia.
  - split; [|reflexivity]. intros _ H. revert E. unfold norm_ind, index_ok in *.
    destruct (Z.leb_spec 0 i), (Z.ltb_spec i (Z.of_nat n)), (Z.ltb_spec i 0), (Z.leb_spec (- Z.of_nat n) i); cbn; try discriminate; lia.
Qed.
Lemma mapM_norm n inds :
  (Forall (index_ok n) inds -> exists ks, mapM (fun i => match norm_ind n i with Some k => Ok k | None => Err IndexErr end) inds = Ok ks
     /\ forall k, In k ks <-> is_designated n inds k) /\
  (~ Forall (index_ok n) inds -> mapM (fun i => match norm_ind n i with Some k => Ok k | None => Err IndexErr end) inds = Err IndexErr).
Proof.
  induction inds as [|i inds [IH1 IH2]].
  - split; [|intro H; destruct H; constructor]. intros _. exists []; split; [reflexivity|].
    intro k; split; [intros []|intros (i & [] & _)].
  - cbn [mapM]. destruct (norm_ind n i) as [k|] eqn:E.
    + assert (O : index_ok n i).
      { apply norm_ind_spec in E. unfold designates, index_ok in *. lia. }
      split.
      * intro F. inversion F; subst. destruct (IH1 H2) as (ks & Ek & Ik). cbn [bind]. rewrite Ek. cbn [bind].
        exists (k :: ks); split; [reflexivity|]. intro k'; split.
        -- intros [<-|I]; [exists i; split; [left; reflexivity|apply norm_ind_spec; exact E]|].
           apply Ik in I. destruct I as (j & I & D). exists j; split; [right; exact I|exact D].
        -- intros (j & [<-|I] & D); [left; apply norm_ind_spec in D; congruence|right; apply Ik; exists j; auto].
      * intro F. cbn [bind]. rewrite IH2; [reflexivity|]. intro F'; apply F; constructor; auto.
    + split.
      * intro F; inversion F; subst. apply norm_ind_none in E. contradiction.
      * reflexivity.
Qed.
Lemma np_delete_ok {A} inds (l : list A) : Forall (index_ok (length l)) inds ->
  exists l', np_delete inds l = Ok l' /\ keeps (fun k => ~ is_designated (length l) inds k) l l'.
Proof.
  intro F. destruct (proj1 (mapM_norm (length l) inds) F) as (ks & E & Ik).
  unfold np_delete. rewrite E. cbn [bind]. eexists; split; [reflexivity|].
  eapply keeps_ext; [|apply keeps_seq]. intros i L. rewrite negb_true_iff. split.
  - intros H D. apply Ik in D. rewrite <- not_true_iff_false in H. apply H. apply existsb_exists. exists i; split; [exact D|apply Nat.eqb_refl].
  - intro H. apply not_true_iff_false. intro X. apply existsb_exists in X. destruct X as (k & I & Ek). apply Nat.eqb_eq in Ek; subst k.
    apply H, Ik, I.
Qed.
Lemma np_delete_err {A} inds (l : list A) : ~ Forall (index_ok (length l)) inds -> np_delete inds l = Err IndexErr.
Proof. intro F. unfold np_delete. rewrite (proj2 (mapM_norm (length l) inds) F). reflexivity. Qed.

Lemma keeps_map {A B} (f : A -> B) P l l' : keeps P l l' -> keeps P (map f l) (map f l').
Proof.
  intros (o & S1 & I1 & F1). exists o; split; [exact S1|split].
  - intro i; rewrite map_length; apply I1.
  - clear -F1. induction F1; cbn; constructor; auto. rewrite nth_error_map, H. reflexivity.
Qed.
Lemma keeps_le {A} P (l l' : list A) : keeps P l l' -> length l' <= length l.
Proof.
  intros (o & S1 & I1 & F1). rewrite <- (Forall2_len _ _ _ F1).
  apply (Nat.le_trans _ (length (seq 0 (length l)))); [|rewrite seq_length; lia].
  apply NoDup_incl_length.
  - clear -S1. induction S1; constructor; auto. intro I. rewrite Forall_forall in H. specialize (H _ I); lia.
  - intros i I. apply I1 in I. apply in_seq; lia.
Qed.

(** ** remove *)
Lemma remove_form p inds l : np_delete inds (xy p) = Ok l -> pts_remove p inds = (set_xy p l, None).
Proof.
  intro E. unfold pts_remove. rewrite E. unfold set_xy. cbn [pv xy].
  destruct (Nat.eqb_spec (length l) (length (pv p))).
  - destruct (Nat.eqb_spec (length (pv p)) (length l + 1)); [lia|reflexivity].
  - cbn [length]. destruct (Nat.eqb_spec 0 (length l + 1)); [lia|reflexivity].
Qed.
Lemma set_xy_ok p l : pts_ok (set_xy p l).
Proof.
  unfold set_xy, pts_ok; cbn. destruct (Nat.eqb_spec (length l) (length (pv p))); [right; auto|left; reflexivity].
Qed.
Lemma remove_lemma p inds : pts_ok p -> Forall (index_ok (length (xy p))) inds ->
  exists p', pts_remove p inds = (p', None) /\ pts_ok p' /\ same_units p' p /\
    keeps (fun k => ~ is_designated (length (xy p)) inds k) (xy p) (xy p') /\
    (pv p = [] -> keeps (fun k => ~ is_designated (length (xy p)) inds k) (triples p) (triples p')).
Proof.
  intros OK F. destruct (np_delete_ok inds (xy p) F) as (l & E & K).
  exists (set_xy p l). split; [apply remove_form; exact E|]. split; [apply set_xy_ok|]. split; [repeat split|].
  split; [exact K|]. intro Ev. rewrite !triples_none.
  - apply keeps_map. exact K.
  - unfold set_xy; cbn; rewrite Ev; destruct (length l =? length _); reflexivity.
  - exact Ev.
Qed.
Lemma remove_out p inds : ~ Forall (index_ok (length (xy p))) inds -> pts_remove p inds = (p, Some IndexErr).
Proof. intro F. unfold pts_remove. rewrite np_delete_err by exact F. reflexivity. Qed.
Lemma keeps_lt {A} (P : nat -> Prop) (l l' : list A) k : keeps P l l' -> k < length l -> ~ P k -> length l' < length l.
Proof.
  intros (o & S1 & I1 & F1) L NP. rewrite <- (Forall2_len _ _ _ F1).
  apply (Nat.lt_le_trans _ (length (k :: o))); [cbn; lia|].
  replace (length l) with (length (seq 0 (length l))) by apply seq_length.
  apply NoDup_incl_length.
  - constructor; [intro I; apply I1 in I; tauto|]. clear -S1. induction S1; constructor; auto. intro I. rewrite Forall_forall in H. specialize (H _ I); lia.
  - intros i [<-|I]; apply in_seq; [lia|apply I1 in I; lia].
Qed.
Lemma index_designates n i : index_ok n i -> exists k, designates n i k.
Proof.
  intro O. destruct (norm_ind n i) as [k|] eqn:E; [exists k; apply norm_ind_spec; exact E|].
  apply norm_ind_none in E. contradiction.
Qed.
Lemma remove_loses p i : pts_ok p -> pv p <> [] -> index_ok (length (xy p)) i ->
  exists p', pts_remove p [i] = (p', None) /\ pv p' = [].
Proof.
  intros OK Hv O. assert (F : Forall (index_ok (length (xy p))) [i]) by (constructor; auto).
  destruct (np_delete_ok [i] (xy p) F) as (l & E & K).
  exists (set_xy p l). split; [apply remove_form; exact E|].
  destruct (index_designates _ _ O) as (k & D).
  assert (length l < length (xy p)).
  { apply (keeps_lt _ _ _ k K); [apply D|]. intro H; apply H. exists i; split; [left; reflexivity|exact D]. }
  unfold set_xy; cbn. destruct (Nat.eqb_spec (length l) (length (pv p))); [|reflexivity].
  destruct OK; [contradiction|lia].
Qed.

(** ** cut *)
Lemma strictly_spec ivx ivy q : (strictly_in ivx (fst q) && strictly_in ivy (snd q))%bool = true <-> in_area ivx ivy q.
Proof.
  unfold in_area. rewrite andb_true_iff.
  assert (H : forall iv a, strictly_in iv a = true <-> (forall lo hi, iv = Some (lo, hi) -> (lo < a /\ a < hi)%num)).
  { intros [[lo hi]|] a; cbn.
    - split.
      + intros H lo' hi' E. injection E as <- <-. apply andb_true_iff in H. destruct H as [H1 H2].
        destruct (qltb_spec lo a), (qltb_spec a hi); try discriminate; auto.
      + intro H. destruct (H lo hi eq_refl). destruct (qltb_spec lo a), (qltb_spec a hi); cbn; auto; exfalso; qlra.
    - split; [discriminate|reflexivity]. }
  rewrite !H. reflexivity.
Qed.
Lemma keep_full {A B} (f : list bool) (l : list A) (m : list B) :
  length f = length l -> length l = length m -> length (keep f l) = length l -> keep f m = m.
Proof.
  revert l m; induction f as [|b f IH]; intros [|x l] [|y m] L1 L2 H; cbn in *; try discriminate; auto.
  destruct b; cbn in H.
  - f_equal. apply (IH l); lia.
  - pose proof (keep_length_le f l). lia.
Qed.
Lemma cut_lemma p ivx ivy : pts_ok p -> (ivx <> None \/ ivy <> None) ->
  exists p', pts_cut p ivx ivy = Ok p' /\ pts_ok p' /\ same_units p' p /\
    let P := (fun k => forall q, nth_error (xy p) k = Some q -> ~ in_area ivx ivy q) in
    keeps P (xy p) (xy p') /\ (pv p = [] -> keeps P (triples p) (triples p')) /\ (length (xy p') = length (xy p) -> p' = p).
Proof.
  intros OK NN.
  set (kept := map (fun t => negb (strictly_in ivx (fst t) && strictly_in ivy (snd t))) (xy p)).
  assert (E : pts_cut p ivx ivy = (let p1 := set_xy p (keep kept (xy p)) in
    if Nat.eqb (length (pv p1)) 0 then Ok p1
    else match set_v p1 (keep kept (pv p1)) with (p2, None) => Ok p2 | (_, Some e) => Err e end)).
  { unfold pts_cut. destruct ivx, ivy; try reflexivity. destruct NN; congruence. }
  assert (LK : length kept = length (xy p)) by apply map_length.
  assert (E2 : pts_cut p ivx ivy = Ok (set_xy p (keep kept (xy p)))).
  { rewrite E. cbv zeta. destruct (Nat.eqb_spec (length (pv (set_xy p (keep kept (xy p))))) 0) as [Z|NZ]; [reflexivity|].
    assert (Lk : length (keep kept (xy p)) = length (pv p)).
    { unfold set_xy in NZ; cbn in NZ. destruct (Nat.eqb_spec (length (keep kept (xy p))) (length (pv p))); [auto|cbn in NZ; lia]. }
    assert (Ep : pv (set_xy p (keep kept (xy p))) = pv p).
    { unfold set_xy; cbn. rewrite Lk, Nat.eqb_refl. reflexivity. }
    rewrite Ep in *.
    assert (Lv : length (pv p) = length (xy p)) by (destruct OK as [H|H]; [rewrite H in NZ; cbn in NZ; lia|exact H]).
    rewrite (keep_full kept (xy p) (pv p)) by lia.
    unfold set_v. cbn [set_xy xy]. unfold v_fits. rewrite Lk, Nat.eqb_refl, orb_true_r.
    unfold set_xy. cbn [xy pv ptx pty ptv]. rewrite Lk, Nat.eqb_refl. reflexivity. }
  exists (set_xy p (keep kept (xy p))). split; [exact E2|]. split; [apply set_xy_ok|]. split; [repeat split|].
  assert (K : keeps (fun k => forall q, nth_error (xy p) k = Some q -> ~ in_area ivx ivy q) (xy p) (keep kept (xy p))).
  { eapply keeps_ext; [|apply keeps_keep; exact LK]. intros i L. unfold kept.
    destruct (nth_error (xy p) i) as [q|] eqn:Eq; [|apply nth_error_None in Eq; lia].
    assert (En : nth i (map (fun t => negb (strictly_in ivx (fst t) && strictly_in ivy (snd t))) (xy p)) false
                 = negb (strictly_in ivx (fst q) && strictly_in ivy (snd q))).
    { apply nth_error_nth. rewrite nth_error_map, Eq. reflexivity. }
    rewrite En, negb_true_iff. split.
    - intros H q' Eq'. injection Eq' as <-. intro A. apply strictly_spec in A. congruence.
    - intro H. apply not_true_iff_false. intro A. apply (H q eq_refl), strictly_spec, A. }
  cbv zeta. split; [exact K|]. split.
  - intro Ev. rewrite !triples_none.
    + apply keeps_map. exact K.
    + unfold set_xy; cbn; rewrite Ev; destruct (_ =? _); reflexivity.
    + exact Ev.
  - cbn [set_xy xy]. intro L. assert (Ek : keep kept (xy p) = xy p) by (apply (keep_full kept (xy p)); auto).
    rewrite Ek. rewrite set_xy_same by auto. destruct p; reflexivity.
Qed.
Lemma cut_nothing p : pts_cut p None None = Err TypeErr.
Proof. reflexivity. Qed.

(** ** add *)
Lemma pts_add_lemma p pt v : pts_ok p -> v_matches p v ->
  exists p', pts_add p pt v = (p', None) /\ pts_ok p' /\ same_units p' p /\ triples p' = triples p ++ [(pt, v)].
Proof.
  intros OK VM. unfold pts_add. destruct v as [z|]; cbn in VM.
  - eexists; split; [reflexivity|]. assert (L : length (pv p ++ [z]) = length (xy p ++ [pt])) by (rewrite !app_length; cbn; lia).
    split; [right; exact L|]. split; [repeat split|].
    rewrite triples_some by exact L. rewrite (triples_some p VM). cbn [xy pv].
    rewrite combine_app' by auto. rewrite map_app. reflexivity.
  - rewrite VM. cbn [length Nat.eqb]. eexists; split; [reflexivity|]. split; [left; reflexivity|]. split; [repeat split|].
    rewrite !triples_none by auto. cbn [xy]. rewrite map_app. reflexivity.
Qed.
Lemma add_missing p pt : pv p <> [] -> exists p', pts_add p pt None = (p', Some ValueErr) /\ xy p' = xy p ++ [pt] /\ p' <> p.
Proof.
  intro H. unfold pts_add. destruct (pv p) eqn:E; [congruence|]. cbn [length Nat.eqb].
  eexists; split; [reflexivity|]. split; [reflexivity|]. intro X. apply (f_equal xy) in X. cbn in X.
  apply (f_equal (@length _)) in X. rewrite app_length in X. cbn in X. lia.
Qed.
Lemma add_unvalued p pt z : pv p = [] -> xy p <> [] -> exists p', pts_add p pt (Some z) = (p', None) /\ ~ pts_ok p'.
Proof.
  intros E N. eexists; split; [reflexivity|]. unfold pts_ok; cbn. rewrite E. intros [H|H]; [discriminate|].
  rewrite app_length in H; cbn in H. destruct (xy p); [congruence|]. cbn in H. rewrite app_length in H. cbn in H. lia.
Qed.

(** ** map-like operations *)
Lemma pts_map_ok (p : points) (f : num * num -> num * num) (g : num -> num) u w z : pts_ok p ->
  pts_ok (mkpts (map f (xy p)) (map g (pv p)) u w z) /\
  triples (mkpts (map f (xy p)) (map g (pv p)) u w z) = map (fun t => (f (fst t), option_map g (snd t))) (triples p).
Proof.
  intros [E|L].
  - split; [left; cbn; rewrite E; reflexivity|]. rewrite !triples_none by (cbn; rewrite ?E; auto).
    cbn [xy]. rewrite !map_map. reflexivity.
  - assert (L' : length (map g (pv p)) = length (map f (xy p))) by (rewrite !map_length; exact L).
    split; [right; exact L'|]. rewrite (triples_some p L). rewrite triples_some by exact L'. cbn [xy pv].
    rewrite map_combine2, !map_map. reflexivity.
Qed.
Lemma pts_map_ok1 (p : points) (f : num * num -> num * num) u w z : pts_ok p ->
  pts_ok (mkpts (map f (xy p)) (pv p) u w z) /\
  triples (mkpts (map f (xy p)) (pv p) u w z) = map (fun t => (f (fst t), snd t)) (triples p).
Proof.
  intro OK. destruct (pts_map_ok p f (fun a => a) u w z OK) as [A B].
  rewrite map_id in A, B. split; [exact A|]. rewrite B. apply map_ext. intros [q [v|]]; reflexivity.
Qed.
