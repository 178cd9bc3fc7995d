(** * PropCrit: sets of critical points in time, their trajectories and their simplification (C45 to C49, C97 to C99).
    Statements, examples and counterexamples; the proofs are in CritProofs*.v.  The vocabulary is in CritSpec: [frames] pairs
    the times with the point sets of a kind, [located] lists the critical points with their times, [on_trajs] the points of
    trajectories, [partitions] says that both are the same, [built] is any object obtained by the operations of the class. *)
From Coq Require Import Permutation Lia Sorted.
From Verif Require Import Num Res ListLib SortLib SeqSpec Arr FieldModel ScalarFieldModel Concrete ProfileModel ProfileSpec PointsModel PointsSpec
  CritModel CritSpec CritProofs CritProofs2 CritProofs3 CritProofs4 CritProofs5 CritProofs6 CritProofs7 CritProofs8 CritProofs9 CritProofs10 CritProofs11 CritProofs12.

(** ** C45: times and point sets *)
Theorem C45_invariant asort c :
  is_argsort asort -> built asort c -> crit_ok c.
Proof. exact (built_ok asort c). Qed.
Print Assumptions C45_invariant.

Theorem C45_add asort c new t c' :
  is_argsort asort -> crit_ok c -> crit_add asort c new t = (c', None) ->
  crit_ok c' /\ ~ In t (ctimes c) /\
  forall k, exists p, given_set new k p /\ Permutation (frames c' k) ((t, p) :: frames c k).
Proof. exact (crit_add_lemma asort c new t c'). Qed.
Print Assumptions C45_add.

Theorem C45_add_twice asort c new t :
  In t (ctimes c) -> crit_add asort c new t = (c, Some ValueErr).
Proof. exact (crit_add_dup asort c new t). Qed.
Print Assumptions C45_add_twice.

Theorem C45_add_error asort c new t c' e :
  crit_add asort c new t = (c', Some e) ->
  e = ValueErr /\ ctimes c' = ctimes c /\ cpts c' = cpts c /\ ctraj c' = ctraj c.
Proof. exact (crit_add_err asort c new t c' e). Qed.
Print Assumptions C45_add_error.

Theorem C45_add_accepts asort c new t :
  ~ In t (ctimes c) -> units_agree c new -> exists c', crit_add asort c new t = (c', None).
Proof. exact (crit_add_accepts asort c new t). Qed.
Print Assumptions C45_add_accepts.

Theorem C45_add_units asort c new t c' k p :
  crit_add asort c new t = (c', None) -> new k = Some p ->
  ptx p = cux c' /\ pty p = cuy c'.
Proof. exact (crit_add_units asort c new t c' k p). Qed.
Print Assumptions C45_add_units.

Theorem C45_remove_time c t :
  crit_ok c ->
  (In t (ctimes c) -> exists c', crit_remove c (Some t) None = (c', None) /\ crit_ok c' /\
     forall k, frames c' k = filter (fun f => negb (qeqb (fst f) t)) (frames c k)) /\
  (~ In t (ctimes c) -> crit_remove c (Some t) None = (c, Some ValueErr)).
Proof. exact (crit_remove_time c t). Qed.
Print Assumptions C45_remove_time.

Theorem C45_remove_index c i :
  crit_ok c ->
  (index_ok (length (ctimes c)) i -> exists c', crit_remove c None (Some i) = (c', None) /\ crit_ok c' /\
     forall k, keeps (fun j => ~ designates (length (ctimes c)) i j) (frames c k) (frames c' k)) /\
  (~ index_ok (length (ctimes c)) i -> crit_remove c None (Some i) = (c, Some IndexErr)).
Proof. exact (crit_remove_index c i). Qed.
Print Assumptions C45_remove_index.

Theorem C45_sum asort a b :
  is_argsort asort -> crit_ok a -> crit_ok b -> ctimes a <> [] -> ctimes b <> [] ->
  (cut a = cut b -> cux a = cux b -> cuy a = cuy b -> (forall t, In t (ctimes a) -> ~ In t (ctimes b)) ->
   exists c, crit_plus asort a b = Ok c /\ crit_ok c /\ cux c = cux a /\ cuy c = cuy a /\ cut c = cut a /\
             forall k, Permutation (frames c k) (frames a k ++ frames b k)) /\
  (~ (cut a = cut b /\ cux a = cux b /\ cuy a = cuy b) \/ (exists t, In t (ctimes a) /\ In t (ctimes b)) ->
   crit_plus asort a b = Err ValueErr).
Proof. exact (crit_plus_lemma asort a b). Qed.
Print Assumptions C45_sum.

Theorem C45_sum_empty asort a b :
  (ctimes b = [] -> crit_plus asort a b = Ok a) /\ (ctimes a = [] -> ctimes b <> [] -> crit_plus asort a b = Ok b).
Proof. exact (crit_plus_empty asort a b). Qed.
Print Assumptions C45_sum_empty.

Example C45_example : built argsort ex_crit /\ ctimes ex_crit = [qz 0; qz 1; qz 2] /\
  map xy (cpts ex_crit Foc) = [[at2 0 0; at2 9 8]; [at2 9 9; at2 1 0]; [at2 1 1; at2 9 9]] /\
  snd (crit_add argsort ex_crit (foci []) (qz 5)) = None /\ snd (crit_remove ex_crit None (Some (-1)%Z)) = None.
Proof. split; [apply adds_built|]. repeat split; vm_compute; reflexivity. Qed.

(** ** C46: trajectories *)
Theorem C46_partition asort c eps :
  is_argsort asort -> crit_ok c ->
  exists c', crit_traj asort c eps = (c', None) /\ ctimes c' = ctimes c /\ (forall k, map xy (cpts c' k) = map xy (cpts c k)) /\
    forall k, exists l, trajectories c' k = Some l /\ Permutation (on_trajs l) (located c k) /\
      (forall p, In p l -> contiguous (ctimes c) p) /\ longest_first l.
Proof. exact (traj_partition asort c eps). Qed.
Print Assumptions C46_partition.

Example C46_example : crit_ok ex_crit /\
  option_map (map (fun p => length (xy p))) (trajectories (fst (crit_traj argsort ex_crit (Some (qz 4)))) Foc) = Some [3; 3] /\
  option_map (map (fun p => length (xy p))) (trajectories (fst (crit_traj argsort ex_three (Some (qz 4)))) Foc) = Some [1; 1].
Proof. split; [apply ex_ok|]. split; vm_compute; reflexivity. Qed.

(** ** C47: the threshold.  The code compares the square of a distance with the threshold. *)
Theorem C47_squared_partial asort c eps c' k l :
  is_argsort asort -> crit_ok c -> crit_traj asort c eps = (c', None) -> trajectories c' k = Some l ->
  (forall p, In p l -> steps_within eps (line_of p)) /\ stable eps (ctimes c) (map line_of l).
Proof. exact (traj_steps asort c eps c' k l). Qed.
Print Assumptions C47_squared_partial.

Theorem C47_large_partial asort c e c' k l p :
  is_argsort asort -> crit_ok c -> (1 <= e)%num -> crit_traj asort c (Some e) = (c', None) ->
  trajectories c' k = Some l -> In p l -> steps_within (Some (e * e)%num) (line_of p).
Proof. exact (traj_steps_large asort c e c' k l p). Qed.
Print Assumptions C47_large_partial.

Theorem C47_refuted :
  exists c eps c' l p a b, crit_ok c /\ (0 < eps)%num /\ crit_traj argsort c (Some eps) = (c', None) /\
  trajectories c' Foc = Some l /\ In p l /\ line_of p = [a; b] /\ (eps * eps < sqdist (fst a) (fst b))%num.
Proof. exact threshold_lemma. Qed.
Print Assumptions C47_refuted.

Theorem C47_unlinked_refuted :
  exists c eps c' p q t t', crit_ok c /\ (0 < eps)%num /\ crit_traj argsort c (Some eps) = (c', None) /\
  located c Foc = [(p, t); (q, t')] /\ (sqdist p q < eps * eps)%num /\ option_map (@length points) (trajectories c' Foc) = Some 2.
Proof. exact unlinked_lemma. Qed.
Print Assumptions C47_unlinked_refuted.

Example C47_example : crit_ok ex_crit /\ snd (crit_traj argsort ex_crit (Some (qz 4))) = None /\ (1 <= qz 4)%num.
Proof. split; [apply ex_ok|]. split; [vm_compute; reflexivity|]. discriminate. Qed.

(** ** C48: trajectories after a change *)
Theorem C48_add_refuted asort c new t c' e :
  crit_add asort c new t = (c', e) -> ctraj c' = ctraj c.
Proof. exact (add_keeps_trajs asort c new t c' e). Qed.
Print Assumptions C48_add_refuted.

Theorem C48_remove_refuted c t i c' e :
  crit_ok c -> crit_remove c t i = (c', e) -> ctraj c' = ctraj c.
Proof. exact (remove_keeps_trajs c t i c' e). Qed.
Print Assumptions C48_remove_refuted.

Theorem C48_refuted :
  exists c c1 c2 new t, crit_ok c /\ crit_traj argsort c None = (c1, None) /\ crit_add argsort c1 new t = (c2, None) /\
  trajectories c2 Foc <> None /\ ~ partitions c2.
Proof. exact stale_lemma. Qed.
Print Assumptions C48_refuted.

Theorem C48_clean_partial c c' n :
  (exists asort new t, crit_add asort c new t = (c', None)) \/ (exists t i, crit_remove c t i = (c', None)) ->
  crit_clean c' n = (c', Some GenericErr).
Proof. exact (clean_after_change c c' n). Qed.
Print Assumptions C48_clean_partial.

Example C48_example : exists c', crit_add argsort ex_crit (foci []) (qz 5) = (c', None) /\ length (ctimes c') = 4.
Proof.
  destruct (out_ex (crit_add argsort ex_crit (foci []) (qz 5)) (fun c => Nat.eqb (length (ctimes c)) 4)) as (c & E & H); [vm_compute; reflexivity|].
  exists c. split; [exact E|]. apply Nat.eqb_eq. exact H.
Qed.

(** ** C49: topological simplification *)
Theorem C49_terminates_partial t dmin merge :
  topo_ok t -> exists t', topo_simplify t dmin merge = Ok t'.
Proof. exact (simplify_total t dmin merge). Qed.
Print Assumptions C49_terminates_partial.

Theorem C49_replacement_partial t dmin :
  topo_ok t ->
  exists gs t', topo_simplify t dmin true = Ok t' /\ merged t (dmin * dmin)%num gs /\
    (forall a b, distinct_in gs a b -> (dmin * dmin < sqdist (centre t a) (centre t b))%num) /\
    txy t' = map (centre t) (filter (fun g => negb (group_index t g =? 0)%Z) gs) /\
    Forall2 (summary_type t) (filter (fun g => negb (group_index t g =? 0)%Z) gs) (ttys t').
Proof. exact (simplify_merge_lemma t dmin). Qed.
Print Assumptions C49_replacement_partial.

Theorem C49_groups_partial t lim gs :
  merged t lim gs -> Permutation (concat gs) (seq 0 (length (txy t))) /\ forall g, In g gs -> g <> [].
Proof. exact (merged_partition t lim gs). Qed.
Print Assumptions C49_groups_partial.

Theorem C49_replacement_apart_partial t dmin t' :
  topo_ok t -> topo_simplify t dmin true = Ok t' -> forall p q, distinct_in (txy t') p q -> (dmin * dmin < sqdist p q)%num.
Proof. exact (simplify_apart t dmin t'). Qed.
Print Assumptions C49_replacement_apart_partial.

Theorem C49_replacement_index_partial t dmin t' :
  topo_ok t -> topo_simplify t dmin true = Ok t' ->
  exists gs, merged t (dmin * dmin)%num gs /\ (forall a b, distinct_in gs a b -> (dmin * dmin < sqdist (centre t a) (centre t b))%num) /\
    ((forall g, In g gs -> (Z.abs (group_index t g) <= 1)%Z) -> total_index t' = total_index t).
Proof. exact (simplify_index t dmin t'). Qed.
Print Assumptions C49_replacement_index_partial.

Theorem C49_far_partial t dmin :
  topo_ok t -> (forall i, i < length (txy t) -> index_of (type_of t i) <> 0%Z) ->
  (forall i j, i < length (txy t) -> j < length (txy t) -> i <> j -> (dmin * dmin < sqdist (position t i) (position t j))%num) ->
  topo_simplify t dmin true = Ok t.
Proof. exact (simplify_far t dmin). Qed.
Print Assumptions C49_far_partial.

Theorem C49_delete_partial t dmin :
  topo_ok t ->
  exists ps kept t', topo_simplify t dmin false = Ok t' /\ Permutation (flat_map ends ps ++ kept) (seq 0 (length (txy t))) /\ StronglySorted lt kept /\
    (forall p, In p ps -> (index_of (type_of t (fst p)) + index_of (type_of t (snd p)) = 0)%Z /\ (sqdist (position t (fst p)) (position t (snd p)) <= dmin * dmin)%num) /\
    (forall a b, In a kept -> In b kept -> a <> b -> (index_of (type_of t a) + index_of (type_of t b) = 0)%Z -> (dmin * dmin < sqdist (position t a) (position t b))%num) /\
    txy t' = map (position t) (filter (fun i => negb (index_of (type_of t i) =? 0)%Z) kept) /\
    ttys t' = map (type_of t) (filter (fun i => negb (index_of (type_of t i) =? 0)%Z) kept).
Proof. exact (simplify_delete_lemma t dmin). Qed.
Print Assumptions C49_delete_partial.

Theorem C49_delete_index_partial t dmin t' :
  topo_ok t -> topo_simplify t dmin false = Ok t' -> total_index t' = total_index t.
Proof. exact (simplify_delete_index t dmin t'). Qed.
Print Assumptions C49_delete_index_partial.

Theorem C49_delete_apart_partial t dmin t' :
  topo_ok t -> topo_simplify t dmin false = Ok t' ->
  forall i j p q a b, nth_error (txy t') i = Some p -> nth_error (ttys t') i = Some a -> nth_error (txy t') j = Some q -> nth_error (ttys t') j = Some b ->
    index_of a = 1%Z -> index_of b = (-1)%Z -> (dmin * dmin < sqdist p q)%num.
Proof. exact (simplify_delete_apart t dmin t'). Qed.
Print Assumptions C49_delete_apart_partial.

Theorem C49_frame_partial c i t :
  topo_of_frame c i true = Ok t ->
  topo_ok t /\ forall p k, In (p, code k) (combine (txy t) (ttys t)) <-> exists s, nth_error (cpts c k) i = Some s /\ In p (xy s).
Proof. exact (frame_import c i t). Qed.
Print Assumptions C49_frame_partial.

Theorem C49_index_refuted :
  exists t dmin t', topo_ok t /\ topo_simplify t dmin true = Ok t' /\ total_index t = 1%Z /\ total_index t' = (-1)%Z.
Proof. exact index_lost_lemma. Qed.
Print Assumptions C49_index_refuted.

Theorem C49_crit_points_refuted asort c dmin merge :
  ctimes c <> [] -> crit_simplify asort c dmin merge = Err TypeErr.
Proof. exact (crit_simplify_err asort c dmin merge). Qed.
Print Assumptions C49_crit_points_refuted.

Theorem C49_empty_refuted t dmin merge :
  txy t = [] -> topo_simplify t dmin merge = Err ValueErr.
Proof. exact (simplify_empty t dmin merge). Qed.
Print Assumptions C49_empty_refuted.

Example C49_example : let t := mktopo [at2 0 0; at2 1 0; at2 9 9; at2 2 0] [1; 3; 3; 1]%Z in topo_ok t /\
  match topo_simplify t (qz 1) true with Ok r => ttys r = [3; 1]%Z | Err _ => False end /\
  match topo_simplify t (qz 1) false with Ok r => ttys r = [3; 1]%Z | Err _ => False end.
Proof. cbv zeta. split; [split; [discriminate|reflexivity]|]. split; vm_compute; reflexivity. Qed.

(** ** C97: cleaning trajectories *)
Theorem C97_clean asort c eps n :
  is_argsort asort -> crit_ok c -> (forall k p, In p (cpts c k) -> units_pos p) ->
  exists c1 c2, crit_traj asort c eps = (c1, None) /\ crit_clean c1 n = (c2, None) /\ ctimes c2 = ctimes c /\
    forall k, exists l, trajectories c1 k = Some l /\ trajectories c2 k = Some (filter (enough_points n) l) /\
      Permutation (on_trajs l) (located c k) /\ Permutation (located c2 k) (on_trajs (filter (enough_points n) l)).
Proof. exact (clean_after_traj asort c eps n). Qed.
Print Assumptions C97_clean.

Example C97_example : crit_ok ex_crit /\ (forall k p, In p (cpts ex_crit k) -> units_pos p) /\
  let c := adds [(qz 0, foci [at2 0 0; at2 9 8]); (qz 1, foci [at2 1 0])] in
  map (fun p => length (xy p)) (cpts (fst (crit_clean (fst (crit_traj argsort c (Some (qz 4)))) 2)) Foc) = [1; 1].
Proof.
  split; [apply ex_ok|]. split; [|vm_compute; reflexivity].
  assert (H : forallb (fun k => forallb (fun p => qltb (qz 0) (sc (ptx p)) && qltb (qz 0) (sc (pty p)) && qltb (qz 0) (sc (ptv p)))%bool (cpts ex_crit k)) kinds = true) by (vm_compute; reflexivity).
  intros k p I. rewrite forallb_forall in H. specialize (H k (kinds_all k)). rewrite forallb_forall in H. specialize (H p I).
  apply andb_true_iff in H. destruct H as [H H3]. apply andb_true_iff in H. destruct H as [H1 H2]. repeat split; apply qltb_lt; assumption.
Qed.

(** ** C98: moving and scaling *)
Theorem C98_origin_partial c x y :
  computed c -> exists c', crit_origin c x y = (c', None) /\ ctimes c' = ctimes c /\
  (forall k, located c' k = map (moved x y) (located c k)) /\
  (forall k l, trajectories c k = Some l -> exists l', trajectories c' k = Some l' /\ on_trajs l' = map (moved x y) (on_trajs l)) /\
  (partitions c -> partitions c').
Proof. exact (origin_lemma c x y). Qed.
Print Assumptions C98_origin_partial.

Theorem C98_scale_partial c sx sy sv :
  (forall k, located (crit_scale c sx sy sv) k = map (stretched (sfact sx) (sfact sy) (sfact sv)) (located c k)) /\
  (forall k l, trajectories c k = Some l -> exists l', trajectories (crit_scale c sx sy sv) k = Some l' /\
      on_trajs l' = map (stretched (sfact sx) (sfact sy) (sfact sv)) (on_trajs l)) /\
  (partitions c -> partitions (crit_scale c sx sy sv)).
Proof. exact (scale_lemma c sx sy sv). Qed.
Print Assumptions C98_scale_partial.

Theorem C98_origin_refuted :
  exists c c', crit_ok c /\ crit_origin c (Some (qz 1)) None = (c', Some TypeErr) /\ located c' Foc <> located c Foc.
Proof. exact origin_refuted_lemma. Qed.
Print Assumptions C98_origin_refuted.

Theorem C98_origin_uncomputed_refuted c x y :
  (x <> None \/ y <> None) -> ctraj c Foc = TNone ->
  exists c', crit_origin c x y = (c', Some TypeErr) /\ forall k, located c' k = map (moved x y) (located c k).
Proof. exact (origin_uncomputed c x y). Qed.
Print Assumptions C98_origin_uncomputed_refuted.

Example C98_example : computed (fst (crit_traj argsort ex_crit None)) /\ partitions (fst (crit_traj argsort ex_crit None)).
Proof. apply (traj_partitions argsort ex_crit None argsort_is (ex_ok _)). Qed.

(** ** C99: cropping *)
Theorem C99_space_partial c ivx ivy ip :
  sets_ok c ->
  exists r, crit_crop c ivx ivy None ip = (if ip then r else c, Ok r) /\ ctimes r = ctimes c /\
    forall k, located r k = filter (in_window ivx ivy None) (located c k).
Proof. exact (crop_space_lemma c ivx ivy ip). Qed.
Print Assumptions C99_space_partial.

Theorem C99_time_partial asort c eps c1 ivx ivy t1 t2 ip :
  is_argsort asort -> crit_ok c -> (forall k p, In p (cpts c k) -> pts_ok p) ->
  crit_traj asort c eps = (c1, None) -> (forall k l, trajectories c1 k = Some l -> 2 <= length l) ->
  exists s r, crit_crop c1 ivx ivy (Some (t1, t2)) ip = (s, Ok r) /\ ctimes r = filter (in_iv (Some (t1, t2))) (ctimes c) /\
    (forall k, located r k = filter (in_window ivx ivy (Some (t1, t2))) (located c k)) /\ (ip = true -> s = r) /\
    (ip = false -> ctimes s = ctimes c /\ forall k, located s k = located c k).
Proof. exact (crop_after_traj asort c eps c1 ivx ivy t1 t2 ip). Qed.
Print Assumptions C99_time_partial.

Theorem C99_few_refuted asort c eps c1 k l ivx ivy t1 t2 ip :
  is_argsort asort -> crit_traj asort c eps = (c1, None) -> trajectories c1 k = Some l ->
  length l < 2 -> exists e, snd (crit_crop c1 ivx ivy (Some (t1, t2)) ip) = Err e.
Proof. exact (crop_few asort c eps c1 k l ivx ivy t1 t2 ip). Qed.
Print Assumptions C99_few_refuted.

Theorem C99_uncomputed_refuted c k ivx ivy t1 t2 ip :
  trajectories c k = None -> exists e, snd (crit_crop c ivx ivy (Some (t1, t2)) ip) = Err e.
Proof. exact (crop_uncomputed c k ivx ivy t1 t2 ip). Qed.
Print Assumptions C99_uncomputed_refuted.

Theorem C99_original_refuted :
  exists c c1 s r, crit_ok c /\ crit_traj argsort c None = (c1, None) /\
  crit_crop c1 None None (Some (qz 0, qz 0)) false = (s, Ok r) /\ partitions c1 /\ ~ partitions s /\ ~ partitions r.
Proof. exact crop_original_lemma. Qed.
Print Assumptions C99_original_refuted.

Theorem C99_stale_refuted :
  exists c c1 r, crit_ok c /\ crit_traj argsort c None = (c1, None) /\
  crit_crop c1 (Some (qz 0, qz 9)) None None true = (r, Ok r) /\ ~ partitions r.
Proof. exact crop_space_stale. Qed.
Print Assumptions C99_stale_refuted.

Example C99_example : crit_ok ex_kinds /\ sets_ok ex_kinds /\ several (fst (crit_traj argsort ex_kinds None)) /\
  option_map (@length points) (trajectories (fst (crit_traj argsort ex_crit None)) NodeI) = Some 0.
Proof.
  split; [apply ex_ok|]. split; [|split; [|vm_compute; reflexivity]].
  - assert (H : forallb (fun k => forallb (fun p => Nat.eqb (length (pv p)) 0) (cpts ex_kinds k)) kinds = true) by (vm_compute; reflexivity).
    intros k p I. rewrite forallb_forall in H. specialize (H k (kinds_all k)). rewrite forallb_forall in H. specialize (H p I). left.
    destruct (pv p); [reflexivity|discriminate].
  - assert (H : forallb (fun k => match ctraj (fst (crit_traj argsort ex_kinds None)) k with TArr (_ :: _) => true | _ => false end) kinds = true) by (vm_compute; reflexivity).
    intro k. rewrite forallb_forall in H. specialize (H k (kinds_all k)). destruct (ctraj (fst (crit_traj argsort ex_kinds None)) k) as [| |[|p l]]; try discriminate.
    exists (p :: l). split; [reflexivity|discriminate].
Qed.
