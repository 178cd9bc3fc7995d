(** * CritProofs8: cropping critical points. *)
From Verif Require Import Num Res ListLib SortLib SeqSpec Arr FieldModel ScalarFieldModel ProfileModel ProfileSpec PointsModel PointsSpec PointsProofs PointsProofs2
  PointsProofs6 FieldProofs FieldProofs2 ScalarProofs CritModel CritSpec CritProofs CritProofs2 CritProofs3 CritProofs4 CritProofs5 CritProofs6 CritProofs7.
From Coq Require Import Permutation Lia Sorted.

Lemma keep_map_filter {A} (f : A -> bool) (g : A -> bool) l : keep (map f l) l = filter f l.
Proof. induction l as [|a l IH]; cbn; [reflexivity|]. destruct (f a); cbn; rewrite IH; reflexivity. Qed.
Lemma crop_xy p ivx ivy : pts_ok p -> xy (pts_crop p ivx ivy None) = filter (fun q => in_iv ivx (fst q) && in_iv ivy (snd q))%bool (xy p).
Proof.
  intros OK. unfold pts_crop, apply_mask. cbn [xy].
  assert (E : crop_mask p ivx ivy None = map (fun t => (out_zone ivx (fst t) || out_zone ivy (snd t))%bool) (xy p)).
  { unfold crop_mask. cbv zeta. destruct (Nat.eqb_spec (length (pv p)) 0) as [Z|NZ]; [reflexivity|]. destruct OK as [E|L]; [rewrite E in NZ; cbn in NZ; congruence|].
    revert L. generalize (pv p) as v. generalize (xy p) as l. induction l as [|q l IH]; intros [|a v] L; cbn in *; try discriminate; [reflexivity|].
    rewrite orb_false_r. f_equal. apply IH. lia. }
  rewrite E, map_map, keep_map. apply filter_ext. intros t. rewrite negb_orb, !out_in. reflexivity.
Qed.
Lemma filter_flat {A B} (f : B -> bool) (g : A -> list B) l : filter f (flat_map g l) = flat_map (fun a => filter f (g a)) l.
Proof. induction l; cbn; [reflexivity|]. rewrite filter_app, IHl. reflexivity. Qed.
Lemma located_space c ivx ivy : sets_ok c -> forall k, located (crop_space c ivx ivy) k = filter (in_window ivx ivy None) (located c k).
Proof.
  intros OK.
  assert (G : forall k, located (crit_forget (set_pts c (fun k => map (fun p => pts_crop p ivx ivy None) (cpts c k)))) k = filter (in_window ivx ivy None) (located c k)).
  { intro k. unfold located, frames. cbn [crit_forget set_pts set_eps ctimes cpts].
    assert (O : forall p, In p (cpts c k) -> pts_ok p) by (intros p I; apply (OK k p I)). revert O.
    generalize (cpts c k) as l, (ctimes c) as ts. induction l as [|p l IH]; intros [|t ts] O; cbn [map combine flat_map]; auto.
    rewrite filter_app, <- IH by (intros q I; apply O; right; exact I). f_equal. cbn [fst snd]. rewrite crop_xy by (apply O; left; reflexivity).
    generalize (xy p) as m. induction m as [|[a b] m IHm]; [reflexivity|]. cbn [filter map fst snd]. unfold in_window at 1. cbn [fst snd in_iv]. rewrite andb_true_r.
    destruct (in_iv ivx a && in_iv ivy b)%bool; cbn [map]; rewrite IHm; reflexivity. }
  intro k. unfold crop_space. destruct ivx, ivy; try apply G. symmetry. rewrite (filter_ext _ (fun _ => true)) by reflexivity.
  clear. induction (located c k); cbn; congruence.
Qed.
Lemma located_times_crop c t1 t2 : crit_ok c -> forall k, located (crop_times c t1 t2) k = filter (in_window None None (Some (t1, t2))) (located c k).
Proof.
  intros [_ L] k. unfold located, frames, crop_times. cbn [ctimes cpts]. specialize (L k). revert L.
  generalize (cpts c k) as l, (ctimes c) as ts. induction l as [|p l IH]; intros [|t ts] L; cbn in L |- *; try discriminate; [reflexivity|].
  rewrite filter_app, <- IH by lia.
  assert (E : filter (in_window None None (Some (t1, t2))) (map (fun q => (q, t)) (xy p)) = if (qleb t1 t && qleb t t2)%bool then map (fun q => (q, t)) (xy p) else []).
  { generalize (xy p) as m. induction m as [|q m IHm]; cbn; [destruct (qleb t1 t && qleb t t2)%bool; reflexivity|]. rewrite IHm. unfold in_window. cbn.
    destruct (qleb t1 t && qleb t t2)%bool; reflexivity. }
  rewrite E. destruct (qleb t1 t && qleb t t2)%bool; cbn; reflexivity.
Qed.
Lemma sets_ok_times c t1 t2 : sets_ok c -> sets_ok (crop_times c t1 t2).
Proof. intros O k p I. apply (O k). cbn in I. apply keep_in in I. exact I. Qed.
Lemma window_split ivx ivy t1 t2 l : filter (in_window ivx ivy None) (filter (in_window None None (Some (t1, t2))) l) = filter (in_window ivx ivy (Some (t1, t2))) l.
Proof.
  induction l as [|x l IH]; [reflexivity|]. cbn [filter].
  assert (W1 : in_window None None (Some (t1, t2)) x = (qleb t1 (snd x) && qleb (snd x) t2)%bool) by reflexivity.
  assert (W2 : in_window ivx ivy (Some (t1, t2)) x = (in_window ivx ivy None x && (qleb t1 (snd x) && qleb (snd x) t2))%bool).
  { unfold in_window. cbn [in_iv]. rewrite andb_true_r. reflexivity. }
  rewrite W1, W2. destruct (qleb t1 (snd x) && qleb (snd x) t2)%bool; cbn [filter]; rewrite IH.
  - rewrite andb_true_r. reflexivity.
  - rewrite andb_false_r. reflexivity.
Qed.

(** ** cropping in space only *)
Lemma crop_space_lemma c ivx ivy ip : sets_ok c ->
  exists r, crit_crop c ivx ivy None ip = (if ip then r else c, Ok r) /\ ctimes r = ctimes c /\
    forall k, located r k = filter (in_window ivx ivy None) (located c k).
Proof.
  intro O. exists (crop_space c ivx ivy). split; [reflexivity|]. split; [|apply located_space; exact O].
  unfold crop_space. destruct ivx, ivy; reflexivity.
Qed.
(** ** cropping in time *)
Lemma each_inv1 (f : crit -> kind -> cout) (P : crit -> Prop) ks c : P c -> (forall c k, P c -> P (fst (f c k))) -> P (fst (each ks f c)).
Proof.
  revert c; induction ks as [|k ks IH]; intros c H S; cbn; [exact H|]. pose proof (S c k H). destruct (f c k) as [c1 [e|]]; cbn in *; [assumption|]. apply IH; assumption.
Qed.
Lemma crop_trajs_pts c t1 t2 : cpts (fst (crop_trajs c t1 t2)) = cpts c /\ ctimes (fst (crop_trajs c t1 t2)) = ctimes c.
Proof.
  unfold crop_trajs. pose proof (each_inv1 (each_traj (fun p => pts_crop p None None (Some (t1, t2)))) (fun s => cpts s = cpts c /\ ctimes s = ctimes c) kinds c) as H.
  destruct H as [H1 H2]; [auto| |].
  { intros s k [A B]. unfold each_traj. destruct (ctraj s k); cbn; auto. }
  destruct (each kinds _ c) as [c1 [e|]] eqn:E; cbn [fst] in *; [auto|].
  rewrite <- H1, <- H2. apply (each_inv1 drop_void (fun s => cpts s = cpts c1 /\ ctimes s = ctimes c1)); [auto|].
  intros s k [A B]. unfold drop_void. destruct (ctraj s k) as [| |[|p l]]; cbn; auto.
Qed.
Lemma drop_void_all c : several c -> exists c', each kinds drop_void c = (c', None) /\
  forall k l, ctraj c k = TArr l -> ctraj c' k = TArr (filter (fun p => negb (Nat.eqb (length (xy p)) 0)) l).
Proof.
  intro H. set (g := fun t => match t with TNone => Err TypeErr | TList _ => Err TypeErr | TArr [] => Err IndexErr
    | TArr l => Ok (TArr (filter (fun p => negb (Nat.eqb (length (xy p)) 0)) l)) end).
  assert (FE : forall ks f h cc, (forall c k, f c k = h c k) -> each ks f cc = each ks h cc).
  { induction ks as [|k ks IH]; intros f0 h cc Q; cbn; [reflexivity|]. rewrite Q. destruct (h cc k) as [c2 [e|]]; [reflexivity|]. apply IH; exact Q. }
  rewrite (FE kinds drop_void (fun c k => match g (ctraj c k) with Ok v => (set_traj c (updk (ctraj c) k v), None) | Err e => (c, Some e) end)).
  2:{ intros c2 k. unfold drop_void, g. destruct (ctraj c2 k) as [| |[|p l]]; reflexivity. }
  set (x := fun k => match g (ctraj c k) with Ok v => v | Err _ => TNone end).
  rewrite (each_ok (fun c k => g (ctraj c k)) (fun c k l => set_traj c (updk (ctraj c) k l)) x kinds c kinds_nodup).
  2:{ intros k _. unfold x. destruct (H k) as (l & -> & N). destruct l; [congruence|]. reflexivity. }
  2:{ intros c0 k k' v N. cbn [set_traj ctraj]. rewrite updk_other by exact N. reflexivity. }
  pose proof (put_traj_all c x) as PA. cbv zeta in PA. set (c1 := fold_left _ kinds c) in *. clearbody c1.
  destruct PA as (_ & _ & _ & _ & _ & _ & P1). exists c1. split; [reflexivity|]. intros k l El. rewrite P1. unfold x. rewrite El.
  destruct (H k) as (l' & El' & N). rewrite El in El'. injection El' as <-. destruct l; [congruence|]. reflexivity.
Qed.
Definition keep_span (t1 t2 : num) (l : list points) : list points :=
  filter (fun p => negb (Nat.eqb (length (xy p)) 0)) (map (fun p => pts_crop p None None (Some (t1, t2))) l).
Lemma crop_trajs_all c t1 t2 : several c -> exists c', crop_trajs c t1 t2 = (c', None) /\ cpts c' = cpts c /\ ctimes c' = ctimes c /\
  forall k l, ctraj c k = TArr l -> ctraj c' k = TArr (keep_span t1 t2 l).
Proof.
  intro H. destruct (crop_trajs_pts c t1 t2) as [Pc Tc]. revert Pc Tc. unfold crop_trajs.
  destruct (each_traj_all (fun p => pts_crop p None None (Some (t1, t2))) c) as (c1 & E1 & T1 & P1 & _ & _ & _ & _ & R1).
  { intro k. unfold trajectories. destruct (H k) as (l & -> & _). discriminate. }
  rewrite E1. destruct (drop_void_all c1) as (c2 & E2 & R2).
  { intro k. rewrite R1. destruct (H k) as (l & -> & N). cbn. eexists; split; [reflexivity|]. destruct l; [congruence|discriminate]. }
  rewrite E2. cbn [fst]. intros Pc Tc. exists c2. split; [reflexivity|]. split; [exact Pc|]. split; [exact Tc|]. intros k l El. unfold keep_span. apply R2. rewrite R1, El. reflexivity.
Qed.
Lemma crop_trajs_err c t1 t2 : ~ several c -> exists e, snd (crop_trajs c t1 t2) = Some e.
Proof.
  intro N. unfold crop_trajs.
  assert (Dec : (exists k, ctraj c k = TNone) \/ computed c).
  { assert (T : forall k, {ctraj c k = TNone} + {trajectories c k <> None}) by (intro k; unfold trajectories; destruct (ctraj c k); [left; reflexivity|right; discriminate|right; discriminate]).
    destruct (T Foc), (T FocC), (T NodeI), (T NodeO), (T Sadd); try (left; eexists; eassumption). right. intros []; assumption. }
  assert (EE : forall (f : crit -> kind -> cout) ks k c0, In k ks ->
     (forall s, ctraj s k = ctraj c0 k -> snd (f s k) <> None) ->
     (forall s k', k' <> k -> snd (f s k') = None -> ctraj (fst (f s k')) k = ctraj s k) -> snd (each ks f c0) <> None).
  { intros f ks. induction ks as [|k' ks IH]; intros k c0 I F S; [destruct I|]. cbn.
    destruct (f c0 k') as [c1 [e|]] eqn:E; [discriminate|].
    assert (KD : {k' = k} + {k' <> k}) by (decide equality). destruct KD as [->|NK].
    - specialize (F c0 eq_refl). rewrite E in F. cbn in F. congruence.
    - destruct I as [->|I]; [congruence|]. apply (IH k c1 I).
      + intros s Es. apply F. rewrite Es. specialize (S c0 k' NK). rewrite E in S. apply S. reflexivity.
      + exact S. }
  assert (ST : forall f s k k', k' <> k -> ctraj (fst (each_traj f s k')) k = ctraj s k).
  { intros f s k k' NK. unfold each_traj. destruct (ctraj s k') eqn:E; cbn; rewrite ?updk_other by congruence; reflexivity. }
  destruct Dec as [[k Ek]|C].
  - pose proof (EE (each_traj (fun p => pts_crop p None None (Some (t1, t2)))) kinds k c (kinds_all k)) as H.
    destruct (each kinds _ c) as [c1 [e|]]; [exists e; reflexivity|]. exfalso. apply H; [| |reflexivity].
    + intros s Es. unfold each_traj. rewrite Es, Ek. discriminate.
    + intros s k' NK _. apply ST; exact NK.
  - destruct (each_traj_all (fun p => pts_crop p None None (Some (t1, t2))) c C) as (c1 & -> & _ & _ & _ & _ & _ & _ & R1).
    assert (Bad : exists k, (exists l, ctraj c k = TList l) \/ ctraj c k = TArr []).
    { assert (T : forall k, ((exists l, ctraj c k = TList l) \/ ctraj c k = TArr []) \/ (exists l, ctraj c k = TArr l /\ l <> [])).
      { intro k. specialize (C k). unfold trajectories in C. destruct (ctraj c k) as [|l|[|p l]]; [congruence|eauto|auto|]. right. eexists; split; [reflexivity|discriminate]. }
      destruct (T Foc), (T FocC), (T NodeI), (T NodeO), (T Sadd); try (eexists; eassumption). exfalso. apply N. intros []; assumption. }
    destruct Bad as [k B].
    pose proof (EE drop_void kinds k c1 (kinds_all k)) as H.
    destruct (each kinds drop_void c1) as [c2 [e|]]; [exists e; reflexivity|]. exfalso. apply H; [| |reflexivity].
    + intros s Es. unfold drop_void. rewrite Es, R1. destruct B as [[l ->]|Ek]; [discriminate|rewrite Ek; discriminate].
    + intros s k' NK _. unfold drop_void. destruct (ctraj s k') as [| |[|p l]]; cbn; rewrite ?updk_other by congruence; reflexivity.
Qed.
Lemma several_times c t1 t2 : several c -> several (crop_times c t1 t2).
Proof. intros H k. exact (H k). Qed.
Lemma crop_time_lemma c ivx ivy t1 t2 ip : crit_ok c -> sets_ok c -> several c ->
  exists s r, crit_crop c ivx ivy (Some (t1, t2)) ip = (s, Ok r) /\ ctimes r = filter (in_iv (Some (t1, t2))) (ctimes c) /\
    (forall k, located r k = filter (in_window ivx ivy (Some (t1, t2))) (located c k)) /\
    (ip = true -> s = r) /\ (ip = false -> ctimes s = ctimes c /\ (forall k, located s k = located c k) /\ forall k, ctraj r k = ctraj c k) /\
    forall k l, ctraj c k = TArr l -> ctraj s k = TArr (keep_span t1 t2 l).
Proof.
  intros OK SO SV.
  assert (LC : forall c' k, cpts c' = cpts (crop_times c t1 t2) -> ctimes c' = ctimes (crop_times c t1 t2) ->
               located (crop_space c' ivx ivy) k = filter (in_window ivx ivy (Some (t1, t2))) (located c k)).
  { intros c' k P T. rewrite located_space.
    - unfold located at 1, frames. rewrite P, T. change (flat_map _ _) with (located (crop_times c t1 t2) k). rewrite located_times_crop by exact OK. apply window_split.
    - intros k' p I. rewrite P in I. apply (sets_ok_times c t1 t2 SO k' p I). }
  assert (SPT : forall c', ctimes (crop_space c' ivx ivy) = ctimes c') by (intro c'; unfold crop_space; destruct ivx, ivy; reflexivity).
  assert (SPR : forall c', ctraj (crop_space c' ivx ivy) = ctraj c') by (intro c'; unfold crop_space; destruct ivx, ivy; reflexivity).
  assert (KT : ctimes (crop_times c t1 t2) = filter (in_iv (Some (t1, t2))) (ctimes c)).
  { cbn [crop_times ctimes]. apply (keep_map_filter _ (fun _ => true)). }
  destruct ip.
  - destruct (crop_trajs_all (crop_times c t1 t2) t1 t2 (several_times c t1 t2 SV)) as (c1 & E1 & P1 & T1 & R1).
    unfold crit_crop. rewrite E1. exists (crop_space c1 ivx ivy), (crop_space c1 ivx ivy). split; [reflexivity|].
    rewrite SPT, T1. split; [exact KT|]. split; [intro k; apply LC; assumption|]. split; [reflexivity|]. split; [discriminate|].
    intros k l El. rewrite SPR. apply R1. exact El.
  - destruct (crop_trajs_all c t1 t2 SV) as (c1 & E1 & P1 & T1 & R1). unfold crit_crop. rewrite E1.
    exists c1, (crop_space (crop_times c t1 t2) ivx ivy). split; [reflexivity|]. rewrite SPT. split; [exact KT|].
    split; [intro k; apply LC; reflexivity|]. split; [discriminate|]. split; [|exact R1]. intros _. split; [exact T1|]. split.
    + intro k. unfold located, frames. rewrite P1, T1. reflexivity.
    + intro k. rewrite SPR. reflexivity.
Qed.
Lemma crop_time_err c ivx ivy t1 t2 ip : ~ several c -> exists e, snd (crit_crop c ivx ivy (Some (t1, t2)) ip) = Err e.
Proof.
  intro N. unfold crit_crop. destruct ip.
  - destruct (crop_trajs_err (crop_times c t1 t2) t1 t2) as [e E]; [intro H; apply N; intro k; exact (H k)|].
    destruct (crop_trajs _ t1 t2) as [s [e'|]]; [exists e'; reflexivity|discriminate].
  - destruct (crop_trajs_err c t1 t2 N) as [e E]. destruct (crop_trajs c t1 t2) as [s [e'|]]; [exists e'; reflexivity|discriminate].
Qed.

(** after compute_traj, a kind with fewer than two trajectories *)
Lemma each_value (get : crit -> kind -> res trajs) ks c c' :
  each ks (fun c k => match get c k with Ok t => (set_traj c (updk (ctraj c) k t), None) | Err e => (c, Some e) end) c = (c', None) ->
  forall k, (exists s, get s k = Ok (ctraj c' k)) \/ (~ In k ks /\ ctraj c' k = ctraj c k).
Proof.
  revert c; induction ks as [|k0 ks IH]; intros c E k; cbn in E; [injection E as <-; right; auto|].
  destruct (get c k0) as [t|e] eqn:G; [|discriminate]. destruct (IH _ E k) as [H|[NI H]]; [left; exact H|]. cbn [set_traj ctraj] in H.
  assert (KD : {k0 = k} + {k0 <> k}) by (decide equality). destruct KD as [->|NK].
  - left. exists c. rewrite H, updk_same. exact G.
  - right. split; [intros [X|X]; auto|]. rewrite H, updk_other by congruence. reflexivity.
Qed.
Lemma arr_two asort pts times eps l : is_argsort asort -> time_evolution asort pts times eps = Ok (TArr l) -> 2 <= length l.
Proof.
  intro A. unfold time_evolution. destruct pts as [|p0 pts]; [discriminate|]. destruct (lines_of eps _) as [ls|]; [|discriminate]. cbn [bind].
  set (tr := map (line_points (ptx p0) (pty p0) (ptv p0)) ls). destruct (Nat.ltb_spec 1 (length tr)); [|discriminate].
  intro E. injection E as <-. unfold gather. rewrite map_length, rev_length. destruct (A (map (fun p => qn (length (xy p))) tr)) as [P _].
  rewrite (Permutation_length P), seq_length, map_length. lia.
Qed.
Lemma traj_two asort c eps c1 k l : is_argsort asort -> crit_traj asort c eps = (c1, None) -> trajectories c1 k = Some l ->
  ctraj c1 k = TArr l -> 2 <= length l.
Proof.
  intros A E El Ea. unfold crit_traj in E.
  set (e0 := each kinds _ (set_eps c (Some eps))) in E. destruct e0 as [c0 [e|]]; [discriminate|].
  destruct (each_value (fun c k => let* d := decomposed (cpts c k) in time_evolution asort d (ctimes c) eps) kinds c0 c1 E k) as [[s G]|[NI _]]; [|destruct (NI (kinds_all k))].
  cbv beta in G. destruct (decomposed (cpts s k)) as [d|]; [|discriminate]. cbn [bind] in G. rewrite Ea in G. apply arr_two in G; auto.
Qed.
Lemma crop_few asort c eps c1 k l ivx ivy t1 t2 ip : is_argsort asort -> crit_traj asort c eps = (c1, None) -> trajectories c1 k = Some l ->
  length l < 2 -> exists e, snd (crit_crop c1 ivx ivy (Some (t1, t2)) ip) = Err e.
Proof.
  intros A E El Ll. apply crop_time_err. intro H. destruct (H k) as (l' & El' & _).
  assert (l' = l) by (unfold trajectories in El; rewrite El' in El; congruence). subst l'. pose proof (traj_two asort c eps c1 k l A E El El'). lia.
Qed.
Lemma crop_uncomputed c k ivx ivy t1 t2 ip : trajectories c k = None -> exists e, snd (crit_crop c ivx ivy (Some (t1, t2)) ip) = Err e.
Proof. intros H. apply crop_time_err. intro S. destruct (S k) as (l & E & _). unfold trajectories in H. rewrite E in H. discriminate. Qed.
Lemma several_traj asort c eps c1 : is_argsort asort -> crit_ok c -> crit_traj asort c eps = (c1, None) ->
  (forall k l, trajectories c1 k = Some l -> 2 <= length l) -> several c1.
Proof.
  intros A OK E H k. unfold crit_traj in E. set (e0 := each kinds _ (set_eps c (Some eps))) in E. destruct e0 as [c0 [e|]]; [discriminate|].
  destruct (each_value (fun c k => let* d := decomposed (cpts c k) in time_evolution asort d (ctimes c) eps) kinds c0 c1 E k) as [[s G]|[NI _]]; [|destruct (NI (kinds_all k))].
  cbv beta in G. destruct (decomposed (cpts s k)) as [d|]; [|discriminate]. cbn [bind] in G. specialize (H k). unfold trajectories in H.
  destruct (ctraj c1 k) as [|l|l] eqn:Ek.
  - unfold time_evolution in G. destruct d as [|p0 d]; [discriminate|]. destruct (lines_of eps _) as [ls|]; [|discriminate]. cbn [bind] in G.
    destruct (Nat.ltb _ _); discriminate.
  - exfalso. specialize (H l eq_refl). unfold time_evolution in G. destruct d as [|p0 d]; [injection G as <-; cbn in H; lia|]. destruct (lines_of eps _) as [ls|]; [|discriminate]. cbn [bind] in G.
    destruct (Nat.ltb_spec 1 (length (map (line_points (ptx p0) (pty p0) (ptv p0)) ls))); [discriminate|]. injection G as <-. lia.
  - exists l. split; [reflexivity|]. specialize (H l eq_refl). destruct l; [cbn in H; lia|discriminate].
Qed.
Lemma mapM_in {A B} (f : A -> res B) l r y : mapM f l = Ok r -> In y r -> exists x, In x l /\ f x = Ok y.
Proof.
  revert r; induction l as [|a l IH]; intros r E I; cbn in E; [injection E as <-; destruct I|].
  destruct (f a) as [b|] eqn:Fa; [|discriminate]. cbn [bind] in E. destruct (mapM f l) as [r'|]; [|discriminate]. cbn [bind] in E. injection E as <-.
  destruct I as [<-|I]; [exists a; split; [left; reflexivity|exact Fa]|]. destruct (IH r' eq_refl I) as (x & Ix & Fx). exists x. split; [right|]; assumption.
Qed.
Lemma traj_sets_ok asort c eps : sets_ok c -> sets_ok (fst (crit_traj asort c eps)).
Proof.
  intro O. unfold crit_traj.
  pose proof (each_inv1 (fun c k => match stamped (ctimes c) (cpts c k) with Ok l => (set_pts c (updk (cpts c) k l), None) | Err e => (c, Some e) end)
     sets_ok kinds (set_eps c (Some eps)) O) as H1.
  assert (S1 : forall c k, sets_ok c -> sets_ok (fst (match stamped (ctimes c) (cpts c k) with Ok l => (set_pts c (updk (cpts c) k l), None) | Err e => (c, Some e) end))).
  { intros s k Os. destruct (stamped (ctimes s) (cpts s k)) as [l|e] eqn:E; [|exact Os]. cbn [fst]. intros k' p I. cbn [set_pts cpts] in I.
    assert (KD : {k' = k} + {k' <> k}) by (decide equality). destruct KD as [->|NK]; [|rewrite updk_other in I by congruence; apply (Os k'); exact I].
    rewrite updk_same in I. destruct (mapM_in _ _ _ _ E I) as ([i q] & Iq & Eq). cbn [fst snd] in Eq. unfold stamp in Eq.
    destruct (xy q) as [|a l'] eqn:X.
    - injection Eq as <-. apply (Os k). apply in_combine_r in Iq. exact Iq.
    - destruct (nth_error (ctimes s) i); [|discriminate]. injection Eq as <-. right. cbn. rewrite repeat_length. reflexivity. }
  specialize (H1 S1). destruct (each kinds _ (set_eps c (Some eps))) as [c1 [e|]]; [exact H1|]. cbn [fst] in H1.
  apply each_inv1; [exact H1|]. intros s k Os. destruct (let* d := decomposed (cpts s k) in time_evolution asort d (ctimes s) eps); exact Os.
Qed.
(** cropping in time after compute_traj: works when every kind has at least two trajectories *)
Lemma crop_after_traj asort c eps c1 ivx ivy t1 t2 ip : is_argsort asort -> crit_ok c -> (forall k p, In p (cpts c k) -> pts_ok p) ->
  crit_traj asort c eps = (c1, None) -> (forall k l, trajectories c1 k = Some l -> 2 <= length l) ->
  exists s r, crit_crop c1 ivx ivy (Some (t1, t2)) ip = (s, Ok r) /\ ctimes r = filter (in_iv (Some (t1, t2))) (ctimes c) /\
    (forall k, located r k = filter (in_window ivx ivy (Some (t1, t2))) (located c k)) /\ (ip = true -> s = r) /\
    (ip = false -> ctimes s = ctimes c /\ forall k, located s k = located c k).
Proof.
  intros A OK SO E H. destruct (crit_traj_lemma asort c eps A OK) as (c1' & E' & T1 & OK1 & X1 & _). rewrite E in E'. injection E' as <-.
  pose proof (traj_sets_ok asort c eps SO) as SO1. rewrite E in SO1. cbn [fst] in SO1.
  pose proof (several_traj asort c eps c1 A OK E H) as SV.
  destruct (crop_time_lemma c1 ivx ivy t1 t2 ip OK1 SO1 SV) as (s & r & EC & TC & LC & IC & NC & _).
  assert (LE : forall k, located c1 k = located c k).
  { intro k. assert (forall c, located c k = flat_map (fun f => map (fun q => (q, fst f)) (snd f)) (combine (ctimes c) (map xy (cpts c k)))) as Q.
    { intro cc. unfold located, frames. generalize (cpts cc k) as l, (ctimes cc) as ts. induction l as [|p l IH]; intros [|t ts]; cbn; auto. rewrite IH; reflexivity. }
    rewrite !Q, T1, X1. reflexivity. }
  exists s, r. rewrite T1 in TC. split; [exact EC|]. split; [exact TC|]. split; [intro k; rewrite LC, LE; reflexivity|]. split; [exact IC|].
  intro I. destruct (NC I) as (N1 & N2 & _). split; [congruence|]. intro k. rewrite N2. apply LE.
Qed.
