(** * PointsProofs: lemmas about point sets. *)
From Verif Require Import Num Res ListLib SortLib SeqSpec Arr FieldModel ScalarFieldModel FieldProofs2 ProfileModel PointsModel PointsSpec.

Lemma filter_map_swap {A B} (p : B -> bool) (f : A -> B) l : filter p (map f l) = map f (filter (fun x => p (f x)) l).
Proof. induction l; cbn; [reflexivity|]. destruct (p (f a)); cbn; congruence. Qed.
Lemma filter_ext_in' {A} (p q : A -> bool) l : (forall x, p x = q x) -> filter p l = filter q l.
Proof. intro H; apply filter_ext; exact H. Qed.
Lemma map_combine2 {A B C D} (f : A -> C) (g : B -> D) a b :
  combine (map f a) (map g b) = map (fun t => (f (fst t), g (snd t))) (combine a b).
Proof. revert b; induction a; intros [|y b]; cbn; congruence. Qed.
Lemma combine_fst_of {A B} (a : list A) (b : list B) : length a = length b -> map fst (combine a b) = a.
Proof. revert b; induction a; intros [|y b] L; cbn in *; try discriminate; [reflexivity|]. f_equal; auto. Qed.
Lemma combine_snd_of {A B} (a : list A) (b : list B) : length a = length b -> map snd (combine a b) = b.
Proof. revert b; induction a; intros [|y b] L; cbn in *; try discriminate; [reflexivity|]. f_equal; auto. Qed.

Lemma triples_none p : pv p = [] -> triples p = map (fun q => (q, None)) (xy p).
Proof. intro E; unfold triples; rewrite E; reflexivity. Qed.
Lemma triples_some p : length (pv p) = length (xy p) ->
  triples p = map (fun t => (fst t, Some (snd t))) (combine (xy p) (pv p)).
Proof.
  intro L. unfold triples. destruct (pv p) as [|v l] eqn:E.
  - destruct (xy p); [reflexivity|discriminate].
  - rewrite <- E. rewrite <- (map_id (xy p)) at 1. exact (map_combine2 (fun x => x) Some (xy p) (pv p)).
Qed.
Lemma triples_length p : pts_ok p -> length (triples p) = length (xy p).
Proof.
  intros [E|L].
  - rewrite triples_none by exact E. apply map_length.
  - rewrite triples_some by exact L. rewrite map_length, combine_length. lia.
Qed.
Lemma triples_xy p : pts_ok p -> map fst (triples p) = xy p.
Proof.
  intros [E|L].
  - rewrite triples_none, map_map by exact E. apply map_id.
  - rewrite triples_some, map_map by exact L. apply (combine_fst_of (xy p) (pv p)). auto.
Qed.

Lemma out_in iv a : negb (out_zone iv a) = in_iv iv a.
Proof.
  destruct iv as [[lo hi]|]; cbn; [|reflexivity].
  destruct (qltb_spec a lo), (qltb_spec hi a), (qleb_spec lo a), (qleb_spec a hi); cbn; auto; exfalso; qlra.
Qed.
Lemma crop_lemma p ivx ivy ivv : pts_ok p ->
  pts_ok (pts_crop p ivx ivy ivv) /\ triples (pts_crop p ivx ivy ivv) = filter (in_box ivx ivy ivv) (triples p) /\
  same_units (pts_crop p ivx ivy ivv) p.
Proof.
  intros [E|L].
  - assert (Eq : pts_crop p ivx ivy ivv = mkpts (filter (fun t => (in_iv ivx (fst t) && in_iv ivy (snd t))%bool) (xy p)) [] (ptx p) (pty p) (ptv p)).
    { unfold pts_crop, apply_mask, crop_mask. rewrite E; cbn [length Nat.eqb]. f_equal.
      rewrite map_map, keep_map. apply filter_ext. intros t. rewrite negb_orb, !out_in. reflexivity. }
    rewrite Eq. split; [left; reflexivity|split; [|repeat split]].
    rewrite !triples_none by (cbn; auto). cbn [xy]. rewrite filter_map_swap. f_equal.
    apply filter_ext. intro t. unfold in_box; cbn. rewrite andb_true_r. reflexivity.
  - destruct (Nat.eqb (length (pv p)) 0) eqn:Z.
    + apply Nat.eqb_eq in Z. destruct (pv p) eqn:Ev; [|discriminate]. cbn in L.
      destruct (xy p) eqn:Ex; [|discriminate].
      unfold pts_crop, apply_mask, crop_mask. rewrite Ev, Ex. cbn. unfold triples, same_units, pts_ok; cbn. rewrite Ev, Ex. cbn. auto.
    + set (m := map negb (crop_mask p ivx ivy ivv)).
      assert (Em : m = map (fun t => in_box ivx ivy ivv (fst t, Some (snd t))) (combine (xy p) (pv p))).
      { unfold m, crop_mask. rewrite Z. rewrite map_combine2, !map_map. apply map_ext. intros [q v]; cbn.
        rewrite !negb_orb, !out_in. reflexivity. }
      assert (Eq : pts_crop p ivx ivy ivv = mkpts (keep m (xy p)) (keep m (pv p)) (ptx p) (pty p) (ptv p)).
      { unfold pts_crop, apply_mask. rewrite Z. reflexivity. }
      assert (LK : length (keep m (pv p)) = length (keep m (xy p))) by (apply keep_length_eq; exact L).
      rewrite Eq. split; [right; exact LK|split; [|repeat split]].
      rewrite (triples_some p L). rewrite triples_some by exact LK. cbn [xy pv].
      rewrite keep_combine, Em, keep_map, filter_map_swap. reflexivity.
Qed.

Lemma map_keep {A B} (f : A -> B) filt l : map f (keep filt l) = keep filt (map f l).
Proof. revert l; induction filt as [|[] f' IH]; intros [|a l]; cbn; auto. f_equal; apply IH. Qed.
Lemma keep_slice {A} a b (l : list A) : keep (map (fun k => (Nat.leb a k && Nat.ltb k b)%bool) (seq 0 (length l))) l = slice a b l.
Proof.
  unfold slice. assert (G : forall (l : list A) s, keep (map (fun k => (Nat.leb a k && Nat.ltb k b)%bool) (seq s (length l))) l
     = firstn (b - Nat.max a s) (skipn (a - s) l)).
  { clear l; induction l as [|x l IH]; intro s; cbn [length seq map keep].
    - rewrite skipn_nil, firstn_nil. reflexivity.
    - rewrite IH. destruct (Nat.leb_spec a s); cbn [andb].
      + destruct (Nat.ltb_spec s b).
        * replace (a - s) with 0 by lia. replace (a - S s) with 0 by lia.
          replace (b - Nat.max a s) with (S (b - Nat.max a (S s))) by lia. reflexivity.
        * replace (b - Nat.max a s) with 0 by lia. replace (b - Nat.max a (S s)) with 0 by lia. reflexivity.
      + replace (a - s) with (S (a - S s)) by lia. replace (Nat.max a (S s)) with (Nat.max a s) by lia. reflexivity. }
  rewrite G. f_equal; [lia|f_equal; lia].
Qed.
Lemma crop_ind_lemma p a b : pts_ok p ->
  pts_ok (pts_crop_ind p a b) /\ triples (pts_crop_ind p a b) = slice a b (triples p) /\ same_units (pts_crop_ind p a b) p.
Proof.
  intro OK. unfold pts_crop_ind, apply_mask. rewrite map_map.
  rewrite (map_ext _ (fun k => (Nat.leb a k && Nat.ltb k b)%bool)) by (intro k; apply negb_involutive).
  split; [|split; [|repeat split]].
  - destruct OK as [E|L]; [left; cbn; rewrite E; reflexivity|].
    right; cbn. destruct (pv p) eqn:E.
    + destruct (xy p); [reflexivity|discriminate].
    + cbn [length Nat.eqb]. rewrite <- E in *. apply keep_length_eq; exact L.
  - destruct OK as [E|L].
    + rewrite !triples_none by (cbn; rewrite E; reflexivity). cbn [xy]. rewrite map_keep.
      rewrite <- keep_slice, map_length. reflexivity.
    + destruct (pv p) eqn:E.
      * destruct (xy p) eqn:Ex; [|discriminate]. unfold triples; rewrite E, Ex; cbn. unfold slice. rewrite skipn_nil, firstn_nil. reflexivity.
      * cbn [length Nat.eqb]. rewrite <- E in *.
        rewrite (triples_some p L). rewrite triples_some by (cbn; apply keep_length_eq; exact L). cbn [xy pv].
        rewrite keep_combine, map_keep. rewrite <- keep_slice, map_length, combine_length, L, Nat.min_id. reflexivity.
Qed.

(** ** sort *)
Lemma gather_map {A B} (a : A) (b : B) (f : A -> B) idx l : (forall i, In i idx -> i < length l) ->
  gather b idx (map f l) = map f (gather a idx l).
Proof.
  intro H. unfold gather. rewrite map_map. apply map_ext_in. intros i I.
  rewrite (nth_indep _ b (f a)) by (rewrite map_length; auto). apply map_nth.
Qed.
Lemma set_xy_same p l : length l = length (xy p) -> pts_ok p -> set_xy p l = mkpts l (pv p) (ptx p) (pty p) (ptv p).
Proof.
  intros L OK. unfold set_xy. f_equal. destruct OK as [E|Lv].
  - rewrite E; cbn. destruct (length l =? 0); reflexivity.
  - rewrite L, <- Lv, Nat.eqb_refl. reflexivity.
Qed.
Lemma perm_seq_lt o n i : Permutation o (seq 0 n) -> In i o -> i < n.
Proof. intros P I. apply (Permutation_in i P) in I. apply in_seq in I. lia. Qed.
Definition sort_order (asort : list num -> list nat) (p : points) (a : ptaxis) : list nat := match a with PtX => asort (map fst (xy p)) | PtY => asort (map snd (xy p)) | _ => asort (pv p) end.
Lemma sort_form asort p a : is_argsort asort -> pts_ok p -> a <> PtOther -> (a = PtV -> pv p <> []) ->
  let o := sort_order asort p a in
  Permutation o (seq 0 (length (xy p))) /\
  pts_sort asort p a = Ok (mkpts (gather (qz 0, qz 0) o (xy p)) (match pv p with [] => [] | _ => gather (qz 0) o (pv p) end)
     (ptx p) (pty p) (ptv p)).
Proof.
  intros AS OK Ha Hv o.
  assert (P : Permutation o (seq 0 (length (xy p)))).
  { unfold o, sort_order. destruct a; try (destruct (AS (map fst (xy p))) as [P _]; rewrite map_length in P; exact P);
      try (destruct (AS (map snd (xy p))) as [P _]; rewrite map_length in P; exact P); try congruence.
    destruct OK as [E|L]; [destruct (Hv eq_refl E)|]. rewrite <- L. apply AS. }
  split; [exact P|].
  assert (Lo : length o = length (xy p)) by (rewrite (Permutation_length P); apply seq_length).
  unfold pts_sort.
  assert (Eo : (match a with PtX => Ok (asort (map fst (xy p))) | PtY => Ok (asort (map snd (xy p)))
            | PtV => if Nat.eqb (length (pv p)) 0 then Err ValueErr else Ok (asort (pv p)) | PtOther => Err ValueErr end) = Ok o).
  { unfold o, sort_order. destruct a; try reflexivity; try congruence.
    destruct (pv p) eqn:E; [destruct (Hv eq_refl eq_refl)|]. reflexivity. }
  rewrite Eo. cbn [bind].
  rewrite set_xy_same by (rewrite ?gather_length; auto). cbn [xy pv ptx pty ptv].
  rewrite gather_length, Lo. destruct OK as [E|L].
  - rewrite E. cbn [length]. destruct (xy p) eqn:Ex; cbn [length Nat.eqb].
    + destruct o; [|discriminate Lo]. unfold set_v. cbn. reflexivity.
    + reflexivity.
  - rewrite L, Nat.eqb_refl. unfold set_v. cbn [xy]. unfold v_fits. rewrite !gather_length, Nat.eqb_refl, orb_true_r.
    f_equal. f_equal. destruct (pv p) eqn:E; [|reflexivity]. cbn in L. rewrite <- L in Lo. destruct o; [reflexivity|discriminate].
Qed.
Lemma triples_gather p o : pts_ok p -> Permutation o (seq 0 (length (xy p))) ->
  let q := mkpts (gather (qz 0, qz 0) o (xy p)) (match pv p with [] => [] | _ => gather (qz 0) o (pv p) end) (ptx p) (pty p) (ptv p) in
  pts_ok q /\ exists d, triples q = gather d o (triples p).
Proof.
  intros OK P q.
  assert (Lo : length o = length (xy p)) by (rewrite (Permutation_length P); apply seq_length).
  assert (Io : forall i, In i o -> i < length (xy p)) by (intros i I; eapply perm_seq_lt; eauto).
  unfold q; clear q.
  assert (D : pv p = [] \/ pv p <> []) by (destruct (pv p); [left; reflexivity|right; discriminate]).
  destruct D as [E|E].
  - rewrite E. split; [left; reflexivity|]. exists ((qz 0, qz 0), None). rewrite triples_none by reflexivity.
    rewrite triples_none by exact E. cbn [xy]. symmetry.
    apply (gather_map (qz 0, qz 0)). exact Io.
  - assert (L : length (pv p) = length (xy p)) by (destruct OK as [H|H]; [congruence|exact H]).
    replace (match pv p with [] => [] | _ => gather (qz 0) o (pv p) end) with (gather (qz 0) o (pv p)) by (destruct (pv p); congruence).
    assert (Lq : length (gather (qz 0) o (pv p)) = length (gather (qz 0, qz 0) o (xy p))) by (rewrite !gather_length; reflexivity).
    split; [right; exact Lq|]. exists ((qz 0, qz 0), Some (qz 0)).
    rewrite (triples_some p L). rewrite triples_some by exact Lq. cbn [xy pv].
    rewrite (gather_combine (qz 0, qz 0) (qz 0) o) by auto.
    symmetry. apply (gather_map ((qz 0, qz 0), qz 0)). rewrite combine_length, L, Nat.min_id. exact Io.
Qed.
Lemma key_col p a d o : pts_ok p -> (a = PtV -> pv p <> []) -> (forall i, In i o -> i < length (xy p)) ->
  map (key a) (gather d o (triples p)) =
  gather (qz 0) o (match a with PtX => map fst (xy p) | PtY => map snd (xy p) | _ => match pv p with [] => map (fun _ => qz 0) (xy p) | _ => pv p end end).
Proof.
  intros OK Hv Io.
  assert (E : map (key a) (triples p) = match a with PtX => map fst (xy p) | PtY => map snd (xy p) | _ => match pv p with [] => map (fun _ => qz 0) (xy p) | _ => pv p end end).
  { destruct OK as [E|L].
    - rewrite triples_none, map_map, E by exact E. destruct a; reflexivity.
    - rewrite triples_some, map_map by exact L. destruct a; cbn [key].
      + rewrite <- (combine_fst_of (xy p) (pv p)) at 2 by auto. rewrite map_map; reflexivity.
      + rewrite <- (combine_fst_of (xy p) (pv p)) at 2 by auto. rewrite map_map; reflexivity.
      + change (map snd (combine (xy p) (pv p)) = match pv p with [] => map (fun _ => qz 0) (xy p) | _ => pv p end).
        rewrite combine_snd_of by auto. destruct (pv p) eqn:Ev; [destruct (xy p); [reflexivity|discriminate L]|reflexivity].
      + change (map snd (combine (xy p) (pv p)) = match pv p with [] => map (fun _ => qz 0) (xy p) | _ => pv p end).
        rewrite combine_snd_of by auto. destruct (pv p) eqn:Ev; [destruct (xy p); [reflexivity|discriminate L]|reflexivity]. }
  rewrite <- E. symmetry. apply gather_map. rewrite triples_length by exact OK. exact Io.
Qed.
Lemma sort_lemma asort p a : is_argsort asort -> pts_ok p -> a <> PtOther -> (a = PtV -> pv p <> []) ->
  exists q, pts_sort asort p a = Ok q /\ pts_ok q /\ same_units q p /\
    Permutation (triples q) (triples p) /\ nondecreasing (map (key a) (triples q)).
Proof.
  intros AS OK Ha Hv. destruct (sort_form asort p a AS OK Ha Hv) as [P Eq].
  destruct (triples_gather p _ OK P) as [OKq (d & Et)].
  eexists; split; [exact Eq|]. split; [exact OKq|]. split; [repeat split|].
  assert (Io : forall i, In i (sort_order asort p a) -> i < length (xy p)) by (intros i I; eapply perm_seq_lt; eauto).
  split.
  - rewrite Et. apply gather_perm. rewrite triples_length by exact OK. exact P.
  - rewrite Et. rewrite (key_col p a d _ OK Hv Io). unfold sort_order.
    destruct a; try apply AS; try congruence.
    destruct (pv p) eqn:E; [destruct (Hv eq_refl eq_refl)|]. apply AS.
Qed.
Lemma sort_errors asort p : pts_sort asort p PtOther = Err ValueErr /\ (pv p = [] -> pts_sort asort p PtV = Err ValueErr).
Proof. split; [reflexivity|]. intro E. unfold pts_sort. rewrite E. reflexivity. Qed.
