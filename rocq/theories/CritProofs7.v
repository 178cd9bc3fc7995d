(** * CritProofs7: cleaning, moving, scaling and cropping. *)
From Verif Require Import Num Res ListLib SortLib SeqSpec Arr FieldModel ScalarFieldModel ProfileModel ProfileSpec PointsModel PointsSpec PointsProofs2
  FieldProofs FieldProofs2 ScalarProofs CritModel CritSpec CritProofs CritProofs2 CritProofs3 CritProofs4 CritProofs5 CritProofs6.
From Coq Require Import Permutation Lia Sorted.

Lemma qeqb_sym a b : qeqb a b = qeqb b a.
Proof. destruct (qeqb a b) eqn:E; symmetry; [apply qeqb_eq in E; subst; apply qeqb_refl|]. apply qeqb_neq in E. apply qeqb_neq. congruence. Qed.

(** ** clean_traj *)
Lemma pts_plus_same p q : xy p <> [] -> xy q <> [] -> same_units p q -> units_pos p ->
  length (pv p) = length (xy p) -> length (pv q) = length (xy q) ->
  fst (pts_plus p q) = Ok (mkpts (xy p ++ xy q) (pv p ++ pv q) (ptx p) (pty p) (ptv p)).
Proof.
  intros Np Nq (U1 & U2 & U3) (P1 & P2 & P3) Lp Lq. unfold pts_plus.
  destruct (xy p) as [|a l] eqn:Ep; [congruence|]. destruct (xy q) as [|b m] eqn:Eq; [congruence|]. rewrite <- Ep, <- Eq in *.
  rewrite <- U1, <- U2, <- U3. rewrite !(proj2 (dim_eqb_eq _ _) eq_refl). cbn [andb negb].
  assert (D : forall u : num, (0 < u)%num -> (u / u)%num = 1%num) by (intros u Hu; qfield; apply qgt_neq; exact Hu).
  rewrite !D by assumption. cbn [fst snd xy pv ptx pty ptv].
  assert (M1 : map (fun t : num * num => (fst t * 1, snd t * 1)%num) (xy q) = xy q).
  { rewrite <- (map_id (xy q)) at 2. apply map_ext. intros [x y]. cbn. f_equal; qring. }
  assert (M2 : map (fun z => z * 1)%num (pv q) = pv q).
  { rewrite <- (map_id (pv q)) at 2. apply map_ext. intros x. qring. }
  rewrite M1, M2. unfold pts_new, v_fits. rewrite !app_length, Lp, Lq, Nat.eqb_refl, orb_true_r. reflexivity.
Qed.
Lemma sum_points_ok l tot : xy tot <> [] -> units_pos tot -> length (pv tot) = length (xy tot) ->
  (forall p, In p l -> xy p <> [] /\ same_units tot p /\ length (pv p) = length (xy p)) ->
  exists t, sum_points tot l = Ok t /\ combine (xy t) (pv t) = combine (xy tot) (pv tot) ++ on_trajs l /\ length (pv t) = length (xy t).
Proof.
  revert tot; induction l as [|p l IH]; intros tot N U L H; cbn [sum_points].
  - exists tot. rewrite app_nil_r. auto.
  - destruct (H p (or_introl eq_refl)) as (Np & Sp & Lp). rewrite (pts_plus_same tot p N Np Sp U L Lp). cbn [bind].
    destruct (IH (mkpts (xy tot ++ xy p) (pv tot ++ pv p) (ptx tot) (pty tot) (ptv tot))) as (t & E & C & Lt).
    + cbn. destruct (xy tot); [congruence|discriminate].
    + exact U.
    + cbn. rewrite !app_length. lia.
    + intros q I. apply H. right; exact I.
    + exists t. split; [exact E|]. split; [|exact Lt]. rewrite C. cbn [xy pv]. rewrite combine_app' by (symmetry; exact L).
      rewrite <- app_assoc. reflexivity.
Qed.
Lemma sum_points_all u w z l : (forall p, In p l -> xy p <> [] /\ units_pos p /\ length (pv p) = length (xy p)) ->
  (forall p q, In p l -> In q l -> same_units p q) ->
  exists t, sum_points (mkpts [] [] u w z) l = Ok t /\ combine (xy t) (pv t) = on_trajs l /\ length (pv t) = length (xy t).
Proof.
  intros H S. destruct l as [|p l]; [exists (mkpts [] [] u w z); auto|].
  cbn [sum_points]. unfold pts_plus at 1. cbn [xy fst bind]. destruct (H p (or_introl eq_refl)) as (Np & Up & Lp).
  destruct (sum_points_ok l p Np Up Lp) as (t & E & C & Lt).
  - intros q I. destruct (H q (or_intror I)) as (Nq & _ & Lq). split; [exact Nq|]. split; [|exact Lq]. apply S; [left; reflexivity|right; exact I].
  - exists t. split; [exact E|]. split; [exact C|exact Lt].
Qed.
Lemma at_time_xy tot t : length (pv tot) = length (xy tot) ->
  map (fun q => (q, t)) (xy (at_time tot t)) = map (fun q : tpoint => (fst q, t)) (filter (fun q => qeqb t (snd q)) (combine (xy tot) (pv tot))).
Proof.
  unfold at_time. cbn [xy]. generalize (xy tot) as l, (pv tot) as v. induction l as [|q l IH]; intros [|a v] L; cbn in *; try discriminate; [reflexivity|].
  rewrite (qeqb_sym t a). destruct (qeqb a t); cbn; rewrite IH by lia; reflexivity.
Qed.
Lemma located_map_times c c' k (g : num -> points) : ctimes c' = ctimes c -> cpts c' k = map g (ctimes c) ->
  located c' k = flat_map (fun t => map (fun q => (q, t)) (xy (g t))) (ctimes c).
Proof.
  intros T E. unfold located, frames. rewrite T, E. generalize (ctimes c) as l. induction l as [|t l IH]; cbn; [reflexivity|]. rewrite IH. reflexivity.
Qed.
Lemma filter_long n l : filter (long_enough n) l = filter (enough_points n) l.
Proof. apply filter_ext. intro p. unfold long_enough, enough_points. destruct (Nat.ltb_spec (length (xy p)) n), (Nat.leb_spec n (length (xy p))); cbn; auto; lia. Qed.
Lemma clean_lemma c n : ceps c <> None -> increasing (ctimes c) ->
  (forall k, exists l, trajectories c k = Some l /\ (forall p, In p l -> contiguous (ctimes c) p /\ units_pos p) /\
             forall p q, In p l -> In q l -> same_units p q) ->
  exists c', crit_clean c n = (c', None) /\ ctimes c' = ctimes c /\
    forall k l, trajectories c k = Some l ->
      trajectories c' k = Some (filter (enough_points n) l) /\ Permutation (located c' k) (on_trajs (filter (enough_points n) l)).
Proof.
  intros E IT H. unfold crit_clean. destruct (ceps c); [|congruence]. clear E.
  set (x := fun k => match clean_kind n (ctraj c k) with Ok t => t | Err _ => TNone end).
  rewrite (each_ok (fun c k => clean_kind n (ctraj c k)) (fun c k t => set_traj c (updk (ctraj c) k t)) x kinds c kinds_nodup).
  2:{ intros k _. unfold x. destruct (H k) as (l & El & _). unfold trajectories in El. destruct (ctraj c k) as [|m|m]; cbn; [discriminate| |reflexivity].
      destruct (forallb (long_enough n) m); reflexivity. }
  2:{ intros c0 k k' v N. cbn. rewrite updk_other by exact N. reflexivity. }
  pose proof (put_traj_all c x) as PA. cbv zeta in PA. set (c1 := fold_left _ kinds c) in *. clearbody c1.
  destruct PA as (T1 & R1 & E1 & U1 & V1 & W1 & P1).
  assert (TX : forall k l, trajectories c k = Some l -> traj_list (x k) = Some (filter (enough_points n) l)).
  { intros k l El. unfold x. rewrite <- filter_long. unfold trajectories in El. destruct (ctraj c k) as [|m|m]; [discriminate| |];
      injection El as ->; cbn; [|reflexivity]. destruct (forallb (long_enough n) l) eqn:F; cbn; [|reflexivity].
    f_equal. symmetry. clear -F. induction l as [|p l IH]; cbn in *; [reflexivity|]. apply andb_true_iff in F. destruct F as [-> F]. f_equal; auto. }
  assert (SP : forall c0 k, exists tot, match traj_list (x k) with
      | Some l => sum_points (mkpts [] [] (cux c0) (cuy c0) (cut c0)) l | None => Err TypeErr end = Ok tot /\
      (forall l, trajectories c k = Some l -> combine (xy tot) (pv tot) = on_trajs (filter (enough_points n) l)) /\ length (pv tot) = length (xy tot)).
  { intros c0 k. destruct (H k) as (l & El & Cl & Sl). rewrite (TX k l El).
    destruct (sum_points_all (cux c0) (cuy c0) (cut c0) (filter (enough_points n) l)) as (tot & Et & Ct & Lt).
    - intros p I. apply filter_In in I. destruct I as [I _]. destruct (Cl p I) as [(N1 & N2 & _) U]. auto.
    - intros p q I J. apply filter_In in I. apply filter_In in J. apply Sl; tauto.
    - exists tot. split; [exact Et|]. split; [|exact Lt]. intros l' El'. rewrite El in El'. injection El' as <-. exact Ct. }
  set (get := fun (c0 : crit) k => match traj_list (ctraj c0 k) with None => Err TypeErr
              | Some l => let* tot := sum_points (mkpts [] [] (cux c0) (cuy c0) (cut c0)) l in Ok (map (at_time tot) (ctimes c0)) end).
  assert (EE : forall cc, each kinds (fun c k => match traj_list (ctraj c k) with
                             | None => (c, Some TypeErr)
                             | Some l => match sum_points (mkpts [] [] (cux c) (cuy c) (cut c)) l with
                                         | Err e => (c, Some e)
                                         | Ok tot => (set_pts c (updk (cpts c) k (map (at_time tot) (ctimes c))), None) end end) cc =
               each kinds (fun c k => match get c k with Ok v => (set_pts c (updk (cpts c) k v), None) | Err e => (c, Some e) end) cc).
  { assert (FE : forall ks f g cc, (forall c k, f c k = g c k) -> each ks f cc = each ks g cc).
    { induction ks as [|k ks IH]; intros f g cc Q; cbn; [reflexivity|]. rewrite Q. destruct (g cc k) as [c2 [e|]]; [reflexivity|]. apply IH; exact Q. }
    intro cc. apply FE. intros c2 k. unfold get. destruct (traj_list (ctraj c2 k)); [|reflexivity]. destruct (sum_points _ l); reflexivity. }
  rewrite EE. clear EE.
  set (y := fun k => match get c1 k with Ok v => v | Err _ => [] end).
  assert (GY : forall k, exists tot, get c1 k = Ok (map (at_time tot) (ctimes c)) /\
      (forall l, trajectories c k = Some l -> combine (xy tot) (pv tot) = on_trajs (filter (enough_points n) l)) /\ length (pv tot) = length (xy tot)).
  { intro k. destruct (SP c1 k) as (tot & Et & Q). exists tot. split; [|exact Q]. unfold get. rewrite P1, T1.
    destruct (traj_list (x k)); [|discriminate]. rewrite Et. reflexivity. }
  rewrite (each_ok get (fun c k l => set_pts c (updk (cpts c) k l)) y kinds c1 kinds_nodup).
  2:{ intros k _. unfold y. destruct (GY k) as (tot & -> & _). reflexivity. }
  2:{ intros; reflexivity. }
  pose proof (put_pts_all c1 y) as PA. cbv zeta in PA. set (c2 := fold_left _ kinds c1) in *. clearbody c2.
  destruct PA as (T2 & R2 & E2 & U2 & V2 & W2 & P2). exists c2. split; [reflexivity|]. split; [congruence|].
  intros k l El. split.
  - unfold trajectories. rewrite R2, P1. specialize (TX k l El). destruct (x k); exact TX.
  - destruct (GY k) as (tot & Eg & Q & Lt). rewrite (located_map_times c c2 k (at_time tot)); [|congruence|].
    2:{ rewrite P2. unfold y. rewrite Eg. reflexivity. }
    rewrite <- (Q l El).
    assert (EQ : flat_map (fun t => map (fun q => (q, t)) (xy (at_time tot t))) (ctimes c) =
                 flat_map (fun t => map (fun q : tpoint => (fst q, t)) (filter (fun q => qeqb t (snd q)) (combine (xy tot) (pv tot)))) (ctimes c)).
    { apply flat_map_ext. intro t. apply at_time_xy. exact Lt. }
    rewrite EQ. apply by_times_perm; [apply increasing_NoDup; exact IT|].
    intros v Iv. rewrite (Q l El) in Iv. unfold on_trajs in Iv. apply in_flat_map in Iv. destruct Iv as (p & Ip & Ix).
    apply filter_In in Ip. destruct Ip as [Ip _]. destruct (H k) as (l' & El' & Cl & _). rewrite El in El'. injection El' as <-.
    destruct (Cl p Ip) as [(_ & _ & l1 & l2 & Et) _]. rewrite Et, !in_app_iff. right; left. destruct v. apply in_combine_r in Ix. exact Ix.
Qed.
(** compute_traj then clean_traj *)
Lemma clean_after_traj asort c eps n : is_argsort asort -> crit_ok c -> (forall k p, In p (cpts c k) -> units_pos p) ->
  exists c1 c2, crit_traj asort c eps = (c1, None) /\ crit_clean c1 n = (c2, None) /\ ctimes c2 = ctimes c /\
    forall k, exists l, trajectories c1 k = Some l /\ trajectories c2 k = Some (filter (enough_points n) l) /\
      Permutation (on_trajs l) (located c k) /\ Permutation (located c2 k) (on_trajs (filter (enough_points n) l)).
Proof.
  intros A OK UP. destruct (crit_traj_lemma asort c eps A OK) as (c1 & E1 & T1 & OK1 & _ & Eps & _ & _ & _ & HK).
  destruct (clean_lemma c1 n) as (c2 & E2 & T2 & H2).
  - rewrite Eps; discriminate.
  - apply OK1.
  - intro k. destruct (HK k) as (l & El & _ & Cl & _ & _ & Sl & Ul). exists l. split; [exact El|]. split; [|exact Sl].
    intros p I. rewrite T1. split; [apply Cl; exact I|]. destruct (Ul p I) as (q & Iq & Q1 & Q2 & Q3).
    destruct (UP k q Iq) as (P1 & P2 & P3). unfold units_pos. rewrite Q1, Q2, Q3. auto.
  - exists c1, c2. split; [exact E1|]. split; [exact E2|]. split; [congruence|].
    intro k. destruct (HK k) as (l & El & Pl & _). destruct (H2 k l El) as [A1 A2]. exists l. auto.
Qed.

(** ** stale trajectories *)
Lemma add_keeps_trajs asort c new t c' e : crit_add asort c new t = (c', e) -> ctraj c' = ctraj c.
Proof.
  intro E. destruct (in_dec Qc_eq_dec t (ctimes c)) as [I|NI].
  - rewrite crit_add_dup in E by exact I. injection E as <- <-. reflexivity.
  - destruct (crit_add_form asort c new t NI) as (c1 & H1 & H2 & H3 & H4 & [F|(g & G & F)] & _ & _); rewrite F in E; injection E as <- <-; exact H3.
Qed.
Lemma remove_keeps_trajs c t i c' e : crit_ok c -> crit_remove c t i = (c', e) -> ctraj c' = ctraj c.
Proof.
  intros OK E. assert (D : forall j, crit_del c j = (c', e) -> ctraj c' = ctraj c).
  { intros j Ej. destruct (crit_del_form c j OK) as [(_ & c2 & E2 & R & _)|[_ E2]]; rewrite E2 in Ej; injection Ej as <- <-; [exact R|reflexivity]. }
  unfold crit_remove in E. destruct t, i; try (injection E as <- <-; reflexivity); [|apply (D z); exact E].
  destruct (first_index _ _); [apply (D _ E)|]. injection E as <- <-. reflexivity.
Qed.
Lemma add_forgets_eps asort c new t c' : crit_add asort c new t = (c', None) -> ceps c' = None.
Proof.
  unfold crit_add. destruct (existsb (qeqb t) (ctimes c)); [discriminate|]. cbv zeta. destruct (existsb _ kinds); [discriminate|].
  intro E. injection E as <-. reflexivity.
Qed.
Lemma clean_needs_traj c n : ceps c = None -> crit_clean c n = (c, Some GenericErr).
Proof. intro E. unfold crit_clean. rewrite E. reflexivity. Qed.
Lemma remove_forgets_eps c t i c' : crit_remove c t i = (c', None) -> ceps c' = None.
Proof.
  assert (D : forall j, crit_del c j = (c', None) -> ceps c' = None).
  { intros j. unfold crit_del. destruct (each kinds _ c) as [c1 [e|]]; [discriminate|]. destruct (np_delete [j] (ctimes c1)); [|discriminate].
    intro E. injection E as <-. reflexivity. }
  unfold crit_remove. destruct t, i; try discriminate; [|apply D]. destruct (first_index _ _); [apply D|discriminate].
Qed.

(** ** set_origin and scale *)
Lemma each_traj_all f c : computed c ->
  exists c', each kinds (each_traj f) c = (c', None) /\ ctimes c' = ctimes c /\ cpts c' = cpts c /\ ceps c' = ceps c /\
    cux c' = cux c /\ cuy c' = cuy c /\ cut c' = cut c /\ forall k, ctraj c' k = map_traj f (ctraj c k).
Proof.
  intro H. set (get := fun (c : crit) k => match ctraj c k with TNone => Err TypeErr | t => Ok (map_traj f t) end).
  assert (EE : forall cc, each kinds (each_traj f) cc =
      each kinds (fun c k => match get c k with Ok v => (set_traj c (updk (ctraj c) k v), None) | Err e => (c, Some e) end) cc).
  { assert (FE : forall ks f g cc, (forall c k, f c k = g c k) -> each ks f cc = each ks g cc).
    { induction ks as [|k ks IH]; intros f0 g cc Q; cbn; [reflexivity|]. rewrite Q. destruct (g cc k) as [c2 [e|]]; [reflexivity|]. apply IH; exact Q. }
    intro cc. apply FE. intros c2 k. unfold get, each_traj. destruct (ctraj c2 k); reflexivity. }
  rewrite EE. rewrite (each_ok get (fun c k l => set_traj c (updk (ctraj c) k l)) (fun k => map_traj f (ctraj c k)) kinds c kinds_nodup).
  2:{ intros k _. unfold get. specialize (H k). unfold trajectories in H. destruct (ctraj c k); [congruence| |]; reflexivity. }
  2:{ intros c0 k k' v N. unfold get. cbn. rewrite updk_other by exact N. reflexivity. }
  pose proof (put_traj_all c (fun k => map_traj f (ctraj c k))) as PA. cbv zeta in PA. set (c1 := fold_left _ kinds c) in *. clearbody c1.
  exists c1. split; [reflexivity|]. destruct PA as (A1 & A2 & A3 & A4 & A5 & A6 & A7). auto 10.
Qed.
Lemma map_traj_list f t : traj_list (map_traj f t) = option_map (map f) (traj_list t).
Proof. destruct t; reflexivity. Qed.
Lemma trajectories_list c k : trajectories c k = traj_list (ctraj c k).
Proof. unfold trajectories. destruct (ctraj c k); reflexivity. Qed.
Lemma combine_map2 {A B C D} (f : A -> C) (g : B -> D) a b : combine (map f a) (map g b) = map (fun t => (f (fst t), g (snd t))) (combine a b).
Proof. revert b; induction a; intros [|y b]; cbn; congruence. Qed.
Lemma on_trajs_map (f : points -> points) (g : tpoint -> tpoint) l : (forall p, combine (xy (f p)) (pv (f p)) = map g (combine (xy p) (pv p))) ->
  on_trajs (map f l) = map g (on_trajs l).
Proof.
  intro H. unfold on_trajs. induction l as [|p l IH]; cbn; [reflexivity|]. rewrite map_app, H, IH. reflexivity.
Qed.
Lemma origin_line x y p : combine (xy (pts_set_origin p x y)) (pv (pts_set_origin p x y)) = map (moved x y) (combine (xy p) (pv p)).
Proof.
  cbn. rewrite <- (map_id (pv p)) at 1. rewrite combine_map2. apply map_ext. intros [[a b] v]. unfold moved, shifted, oshift. cbn. destruct x, y; reflexivity.
Qed.
Lemma located_origin c c' x y : ctimes c' = ctimes c -> (forall k, cpts c' k = map (fun p => pts_set_origin p x y) (cpts c k)) ->
  forall k, located c' k = map (moved x y) (located c k).
Proof.
  intros T P k. unfold located, frames. rewrite T, P. generalize (cpts c k) as l, (ctimes c) as ts.
  induction l as [|p l IH]; intros [|t ts]; cbn; auto. rewrite map_app, IH. f_equal. rewrite !map_map. apply map_ext. intros [a b].
  unfold moved, shifted, oshift. cbn. destruct x, y; reflexivity.
Qed.
Lemma origin_lemma c x y : computed c -> exists c', crit_origin c x y = (c', None) /\ ctimes c' = ctimes c /\
  (forall k, located c' k = map (moved x y) (located c k)) /\
  (forall k l, trajectories c k = Some l -> exists l', trajectories c' k = Some l' /\ on_trajs l' = map (moved x y) (on_trajs l)) /\
  (partitions c -> partitions c').
Proof.
  intro H.
  assert (MID : forall t, moved None None t = t) by (intros [[a b] v]; reflexivity).
  assert (G : exists c', crit_origin c x y = (c', None) /\ ctimes c' = ctimes c /\
      (forall k, located c' k = map (moved x y) (located c k)) /\
      (forall k l, trajectories c k = Some l -> exists l', trajectories c' k = Some l' /\ on_trajs l' = map (moved x y) (on_trajs l)) /\
      (forall k l', trajectories c' k = Some l' -> exists l, trajectories c k = Some l /\ on_trajs l' = map (moved x y) (on_trajs l))).
  { assert (G0 : exists c', each kinds (each_traj (fun p => pts_set_origin p x y)) (set_pts c (fun k => map (fun p => pts_set_origin p x y) (cpts c k))) = (c', None) /\ ctimes c' = ctimes c /\
      (forall k, located c' k = map (moved x y) (located c k)) /\
      (forall k l, trajectories c k = Some l -> exists l', trajectories c' k = Some l' /\ on_trajs l' = map (moved x y) (on_trajs l)) /\
      (forall k l', trajectories c' k = Some l' -> exists l, trajectories c k = Some l /\ on_trajs l' = map (moved x y) (on_trajs l))).
    { destruct (each_traj_all (fun p => pts_set_origin p x y) (set_pts c (fun k => map (fun p => pts_set_origin p x y) (cpts c k))) H)
        as (c' & E & T & P & _ & _ & _ & _ & R).
      exists c'. split; [exact E|]. split; [exact T|]. split; [|split].
      - apply located_origin; [exact T|]. intro k. rewrite P. reflexivity.
      - intros k l El. exists (map (fun p => pts_set_origin p x y) l). rewrite trajectories_list in *. rewrite R, map_traj_list. cbn [set_pts ctraj]. rewrite El.
        split; [reflexivity|]. apply on_trajs_map. apply origin_line.
      - intros k l' El. rewrite trajectories_list in El |- *. rewrite R, map_traj_list in El. cbn [set_pts ctraj] in El.
        destruct (traj_list (ctraj c k)) as [l|]; [|discriminate]. injection El as <-. exists l. split; [reflexivity|].
        apply on_trajs_map. apply origin_line. }
    unfold crit_origin. destruct x, y; try exact G0.
    exists c. split; [reflexivity|]. split; [reflexivity|].
    assert (MI : forall l, map (moved None None) l = l) by (intro l; rewrite <- (map_id l) at 2; apply map_ext; exact MID).
    split; [intro k; rewrite MI; reflexivity|]. split; intros k l El; exists l; rewrite MI; auto. }
  destruct G as (c' & E & T & L & F & B). exists c'. split; [exact E|]. split; [exact T|]. split; [exact L|]. split; [exact F|].
  intros PA k l' El. destruct (B k l' El) as (l & El0 & ->). rewrite L. apply Permutation_map. apply PA. exact El0.
Qed.
Lemma origin_uncomputed c x y : (x <> None \/ y <> None) -> ctraj c Foc = TNone ->
  exists c', crit_origin c x y = (c', Some TypeErr) /\ forall k, located c' k = map (moved x y) (located c k).
Proof.
  intros D H. assert (G : exists c', each kinds (each_traj (fun p => pts_set_origin p x y)) (set_pts c (fun k => map (fun p => pts_set_origin p x y) (cpts c k))) = (c', Some TypeErr) /\
      forall k, located c' k = map (moved x y) (located c k)).
  { cbn [each kinds each_traj set_pts ctraj]. unfold each_traj at 1. cbn [set_pts ctraj]. rewrite H. eexists. split; [reflexivity|].
    apply located_origin; reflexivity. }
  unfold crit_origin. destruct x, y; try exact G. destruct D; congruence.
Qed.
Lemma scale_line sx sy sv p : combine (xy (pts_scale p sx sy sv)) (pv (pts_scale p sx sy sv)) = map (stretched (sfact sx) (sfact sy) (sfact sv)) (combine (xy p) (pv p)).
Proof. cbn. rewrite combine_map2. apply map_ext. intros [[a b] v]. reflexivity. Qed.
Lemma scale_lemma c sx sy sv :
  (forall k, located (crit_scale c sx sy sv) k = map (stretched (sfact sx) (sfact sy) (sfact sv)) (located c k)) /\
  (forall k l, trajectories c k = Some l -> exists l', trajectories (crit_scale c sx sy sv) k = Some l' /\
      on_trajs l' = map (stretched (sfact sx) (sfact sy) (sfact sv)) (on_trajs l)) /\
  (partitions c -> partitions (crit_scale c sx sy sv)).
Proof.
  assert (L : forall k, located (crit_scale c sx sy sv) k = map (stretched (sfact sx) (sfact sy) (sfact sv)) (located c k)).
  { intro k. unfold located, frames. cbn [crit_scale ctimes cpts]. generalize (cpts c k) as l, (ctimes c) as ts.
    induction l as [|p l IH]; intros [|t ts]; cbn [map combine flat_map]; auto. rewrite map_app, IH. f_equal. cbn [fst snd pts_scale xy].
    rewrite !map_map. reflexivity. }
  split; [exact L|]. split.
  - intros k l El. rewrite trajectories_list in *. exists (map (fun p => pts_scale p sx sy sv) l). split; [cbn [crit_scale ctraj]; rewrite map_traj_list, El; reflexivity|].
    apply on_trajs_map. apply scale_line.
  - intros PA k l' El. rewrite trajectories_list in El. cbn [crit_scale ctraj] in El. rewrite map_traj_list in El.
    destruct (traj_list (ctraj c k)) as [l|] eqn:Er; [|discriminate]. injection El as <-.
    rewrite (on_trajs_map _ _ l (scale_line sx sy sv)), L. apply Permutation_map. apply PA. rewrite trajectories_list. exact Er.
Qed.
