(** * CritProofs4: compute_traj. *)
From Verif Require Import Num Res ListLib SortLib SeqSpec Arr FieldModel ScalarFieldModel ProfileModel ProfileSpec PointsModel PointsSpec CritModel CritSpec CritProofs CritProofs2 CritProofs3.
From Coq Require Import Permutation Lia.

Lemma all_steps_ok eps ts groups d closed open all :
  d <> [] -> NoDup (d ++ ts) -> Forall2 (fun t g => forall x, In x g -> snd x = t) ts groups ->
  lines_ok eps d closed open all ->
  exists cl op, all_steps eps groups closed open = cl ++ op /\ lines_ok eps (d ++ ts) cl op (all ++ concat groups).
Proof.
  intros Nd ND F. revert d closed open all Nd ND. induction F as [|t g ts groups Hg F IH]; intros d closed open all Nd ND L; cbn [all_steps concat].
  - exists closed, open. rewrite !app_nil_r. auto.
  - destruct (one_step eps closed open g) as [c o] eqn:E.
    assert (NT : ~ In t d).
    { apply NoDup_remove_2 in ND. intro H; apply ND, in_app_iff; auto. }
    pose proof (one_step_ok eps d closed open g t all Nd L NT Hg) as L'. rewrite E in L'. cbn [fst snd] in L'.
    destruct (IH (d ++ [t]) c o (all ++ g)) as (cl & op & Ea & La).
    + destruct d; discriminate.
    + rewrite <- app_assoc. exact ND.
    + exact L'.
    + exists cl, op. rewrite <- !app_assoc in La. auto.
Qed.
Lemma lines_of_ok eps times groups :
  times <> [] -> NoDup times -> Forall2 (fun t g => forall x, In x g -> snd x = t) times groups ->
  exists ls, lines_of eps groups = Ok ls /\ Permutation (concat ls) (concat groups) /\
    (forall l, In l ls -> l <> [] /\ (exists l1 l2, times = l1 ++ map snd l ++ l2) /\ steps_within eps l) /\
    stable eps times ls.
Proof.
  intros Nt ND F. destruct F as [|t g ts groups Hg F]; [congruence|]. cbn [lines_of].
  assert (L0 : lines_ok eps [t] [] (map (fun p => [p]) g) g).
  { split.
    - constructor; [intros []|constructor].
    - cbn. clear. induction g; cbn; [constructor|]. constructor. exact IHg.
    - intros l I. apply in_map_iff in I. destruct I as (x & <- & I). split; [discriminate|]. exists []. cbn. rewrite (Hg x I). reflexivity.
    - intros l [].
    - cbn. intros l I. apply in_map_iff in I. destruct I as (x & <- & I). apply steps_one.
    - intros A B p q u w _ _ _ _ (l1 & l2 & E). destruct l1 as [|? [|? l1]]; discriminate. }
  destruct (all_steps_ok eps ts groups [t] [] (map (fun p => [p]) g) g) as (cl & op & E & [N P LO LC LS ST]); auto; [discriminate|].
  exists (cl ++ op). rewrite E. split; [reflexivity|]. split; [rewrite concat_app; exact P|]. split; [|exact ST].
  intros l I. split; [|split; [|apply LS; exact I]]; apply in_app_iff in I; destruct I as [I|I].
  - apply LC; exact I.
  - apply LO; exact I.
  - destruct (LC l I) as (_ & l1 & l2 & _ & Q). exists l1, l2; exact Q.
  - destruct (LO l I) as (_ & l1 & Q). exists l1, []. rewrite app_nil_r; exact Q.
Qed.

Lemma combine_fst_snd {A B} (l : list (A * B)) : combine (map fst l) (map snd l) = l.
Proof. induction l as [|[a b] l IH]; cbn; congruence. Qed.
Lemma on_trajs_lines u w z ls : on_trajs (map (line_points u w z) ls) = concat ls.
Proof.
  induction ls as [|l ls IH]; cbn; [reflexivity|]. rewrite combine_fst_snd. f_equal. exact IH.
Qed.
Lemma on_trajs_perm l l' : Permutation l l' -> Permutation (on_trajs l) (on_trajs l').
Proof. intro P. unfold on_trajs. apply Permutation_flat_map. exact P. Qed.

Lemma by_times_perm (X : list tpoint) times : NoDup times -> (forall x, In x X -> In (snd x) times) ->
  Permutation (flat_map (fun t => map (fun q : tpoint => (fst q, t)) (filter (fun q => qeqb t (snd q)) X)) times) X.
Proof.
  intros ND. induction X as [|x X IH]; intro H; cbn [filter map].
  - rewrite flat_map_nil. constructor.
  - transitivity (flat_map (fun t => (if qeqb t (snd x) then [x] else []) ++
                     map (fun q : tpoint => (fst q, t)) (filter (fun q => qeqb t (snd q)) X)) times).
    { clear. induction times as [|t times IH]; cbn [flat_map]; [constructor|]. rewrite IH. apply Permutation_app_tail.
      destruct (qeqb t (snd x)) eqn:E; cbn; [|reflexivity]. apply qeqb_eq in E. rewrite E. destruct x; reflexivity. }
    rewrite flat_map_app_perm. change (x :: X) with ([x] ++ X). apply Permutation_app.
    + assert (I := H x (or_introl eq_refl)). clear -ND I. induction ND as [|t ts N ND IH]; [destruct I|].
      cbn [flat_map]. destruct I as [->|I].
      * rewrite qeqb_refl. cbn. constructor.
        assert (flat_map (fun t => if qeqb t (snd x) then [x] else []) ts = []) as ->; [|constructor].
        clear -N. induction ts as [|u ts IH]; cbn; [reflexivity|]. destruct (qeqb u (snd x)) eqn:E.
        -- apply qeqb_eq in E. exfalso; apply N; left; exact E.
        -- apply IH. intro I; apply N; right; exact I.
      * destruct (qeqb t (snd x)) eqn:E; [|apply IH; exact I]. apply qeqb_eq in E. subst; contradiction.
    + apply IH. intros; apply H; right; assumption.
Qed.

Lemma gather_rev_longest asort (tr : list points) : is_argsort asort ->
  longest_first (gather tp_dflt (rev (asort (map (fun p => qn (length (xy p))) tr))) tr).
Proof.
  intro A. set (lens := map (fun p => qn (length (xy p))) tr). destruct (A lens) as [P N].
  set (o := asort lens) in *. clearbody o.
  assert (Lo : length o = length tr) by (rewrite (Permutation_length P), seq_length; unfold lens; apply map_length).
  intros i j p q Hij Ei Ej. unfold gather in Ei, Ej.
  apply nth_error_map_inv in Ei. destruct Ei as (a & Ea & ->). apply nth_error_map_inv in Ej. destruct Ej as (b & Eb & ->).
  assert (Hj : j < length o) by (apply nth_error_Some_lt in Eb; rewrite rev_length in Eb; exact Eb).
  rewrite nth_error_rev in Ea by lia. rewrite nth_error_rev in Eb by exact Hj.
  assert (Gl : forall u x, nth_error o u = Some x -> nths (gather (qz 0) o lens) u = qn (length (xy (nth x tr tp_dflt)))).
  { intros u x Ex. apply nth_error_nths. unfold gather. rewrite nth_error_map', Ex. cbn. f_equal.
    assert (Hx : x < length tr).
    { apply nth_error_In in Ex. apply (Permutation_in _ P) in Ex. apply in_seq in Ex. unfold lens in Ex. rewrite map_length in Ex. lia. }
    unfold lens. rewrite (nth_indep _ (qz 0) (qn (length (xy tp_dflt)))) by (rewrite map_length; exact Hx).
    apply (map_nth (fun p => qn (length (xy p)))). }
  assert (Hle : (qn (length (xy (nth b tr tp_dflt))) <= qn (length (xy (nth a tr tp_dflt))))%num).
  { rewrite <- (Gl _ _ Ea), <- (Gl _ _ Eb). apply N; [lia|]. rewrite gather_length. lia. }
  unfold qn in Hle. apply (proj1 (qz_le _ _)) in Hle. lia.
Qed.

Lemma time_evolution_ok asort pts times eps : is_argsort asort -> NoDup times ->
  (forall x, In x (flat_map tpoints_of pts) -> In (snd x) times) -> (pts <> [] -> times <> []) ->
  exists t l, time_evolution asort pts times eps = Ok t /\ traj_list t = Some l /\
    Permutation (on_trajs l) (flat_map tpoints_of pts) /\
    (forall p, In p l -> contiguous times p /\ steps_within eps (line_of p)) /\
    stable eps times (map line_of l) /\ longest_first l /\
    (forall p0 r, pts = p0 :: r -> forall p, In p l -> same_units p p0).
Proof.
  intros A ND HT HN. destruct pts as [|p0 pr].
  - exists (TList []), []. cbn. split; [reflexivity|]. split; [reflexivity|]. split; [constructor|].
    split; [intros ? []|]. split; [intros ? ? ? ? ? ? []|]. split; [intros i j p q _ H; destruct i; discriminate|].
    intros ? ? H; discriminate.
  - assert (HN' : times <> []) by (apply HN; discriminate). clear HN.
    set (pts := p0 :: pr) in *.
    assert (F : Forall2 (fun t g => forall x : tpoint, In x g -> snd x = t) times (map (group_at pts) times)).
    { clear. induction times; cbn; constructor; auto. intros x I. unfold group_at in I. apply in_map_iff in I. destruct I as (q & <- & _). reflexivity. }
    destruct (lines_of_ok eps times (map (group_at pts) times) HN' ND F) as (ls & El & Pl & Ol & Sl).
    set (tr := map (line_points (ptx p0) (pty p0) (ptv p0)) ls).
    assert (R : exists t l, time_evolution asort pts times eps = Ok t /\ traj_list t = Some l /\ Permutation l tr /\ longest_first l).
    { unfold time_evolution, pts. fold pts. rewrite El. cbv beta iota delta [bind]. fold tr.
      destruct (Nat.ltb_spec 1 (length tr)).
      - exists (TArr (gather tp_dflt (rev (asort (map (fun p => qn (length (xy p))) tr))) tr)),
          (gather tp_dflt (rev (asort (map (fun p => qn (length (xy p))) tr))) tr).
        split; [reflexivity|]. split; [reflexivity|]. split; [|apply gather_rev_longest; exact A].
        apply gather_perm. rewrite <- Permutation_rev. destruct (A (map (fun p => qn (length (xy p))) tr)) as [P _].
        rewrite map_length in P. exact P.
      - exists (TList tr), tr. split; [reflexivity|]. split; [reflexivity|]. split; [reflexivity|].
        intros i j p q Hij Ei Ej. apply nth_error_Some_lt in Ej. lia. }
    destruct R as (t & l & Et & Etl & Pt & LF). exists t, l. split; [exact Et|]. split; [exact Etl|].
    assert (IN : forall p, In p l -> exists x, In x ls /\ p = line_points (ptx p0) (pty p0) (ptv p0) x).
    { intros p I. apply (Permutation_in _ Pt) in I. unfold tr in I. apply in_map_iff in I. destruct I as (x & <- & I). exists x; auto. }
    split; [|split; [|split; [|split; [exact LF|]]]].
    + rewrite (on_trajs_perm _ _ Pt). unfold tr. rewrite on_trajs_lines, Pl, <- flat_map_concat_map.
      apply by_times_perm; [exact ND|exact HT].
    + intros p I. destruct (IN p I) as (x & Ix & ->). destruct (Ol x Ix) as (N & (l1 & l2 & E) & S). split.
      * split; [|split].
        -- cbn. destruct x; [congruence|discriminate].
        -- cbn. rewrite !map_length. reflexivity.
        -- exists l1, l2. exact E.
      * unfold line_of. cbn. rewrite combine_fst_snd. exact S.
    + intros X Y p q u w IX IY. apply in_map_iff in IX. destruct IX as (px' & <- & IX). apply in_map_iff in IY. destruct IY as (py' & <- & IY).
      destruct (IN _ IX) as (x & Ix & ->). destruct (IN _ IY) as (y & Iy & ->).
      unfold line_of. cbn [xy pv line_points]. rewrite !combine_fst_snd. apply Sl; assumption.
    + intros p1 r E p I. injection E as <- <-. destruct (IN p I) as (x & _ & ->). repeat split.
Qed.
