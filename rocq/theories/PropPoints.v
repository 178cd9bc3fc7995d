(** * PropPoints: the properties of point sets, oriented point sets and temporal point sets
    (C28 to C32, C43, C44, C68 to C76 and the point part of C08, C09, C10, C26).
    Statements only; the proofs are in PointsProofs*.v.  The vocabulary is in PointsSpec (and SeqSpec). *)
From Coq Require Import Permutation.
From Verif Require Import Num Res ListLib SortLib SeqSpec Arr FieldModel ScalarFieldModel FieldSpec Concrete ProfileModel ProfileSpec ProfileProofs PointsModel PointsSpec PointsProofs PointsProofs2 PointsProofs3 PointsProofs4 PointsProofs5 PointsProofs6.

Definition pt2 (a b : Z) : num * num := (qz a, qz b).
(** four points with values, and three without *)
Definition ex_pts : points := mkpts [pt2 0 0; pt2 4 1; pt2 2 3; pt2 1 5] (zs [3; 1; 2; 7]%Z) metre metre second.
Definition ex_bare : points := mkpts [pt2 0 0; pt2 4 1; pt2 2 3] [] metre metre second.
Lemma ex_pts_ok : pts_ok ex_pts.
Proof. right; reflexivity. Qed.
Lemma ex_bare_ok : pts_ok ex_bare.
Proof. left; reflexivity. Qed.
Ltac qneq H := apply (f_equal this) in H; vm_compute in H; discriminate.

(** ** C28 *)
Theorem C28_crop p ivx ivy ivv :
  pts_ok p ->
  pts_ok (pts_crop p ivx ivy ivv) /\ triples (pts_crop p ivx ivy ivv) = filter (in_box ivx ivy ivv) (triples p) /\
  same_units (pts_crop p ivx ivy ivv) p.
Proof. exact (crop_lemma p ivx ivy ivv). Qed.
Print Assumptions C28_crop.

Theorem C28_index_crop p a b :
  pts_ok p ->
  pts_ok (pts_crop_ind p a b) /\ triples (pts_crop_ind p a b) = slice a b (triples p) /\ same_units (pts_crop_ind p a b) p.
Proof. exact (crop_ind_lemma p a b). Qed.
Print Assumptions C28_index_crop.

Example C28_example : pts_ok ex_pts /\ triples (pts_crop ex_pts (Some (qz 1, qz 4)) None (Some (qz 1, qz 2))) = [(pt2 4 1, oz 1); (pt2 2 3, oz 2)].
Proof. split; [exact ex_pts_ok|]. reflexivity. Qed.

(** ** C29 *)
Theorem C29_sort asort p a :
  is_argsort asort -> pts_ok p -> a <> PtOther -> (a = PtV -> pv p <> []) ->
  exists q, pts_sort asort p a = Ok q /\ pts_ok q /\ same_units q p /\
    Permutation (triples q) (triples p) /\ nondecreasing (map (key a) (triples q)).
Proof. exact (sort_lemma asort p a). Qed.
Print Assumptions C29_sort.

Theorem C29_errors asort p :
  pts_sort asort p PtOther = Err ValueErr /\ (pv p = [] -> pts_sort asort p PtV = Err ValueErr).
Proof. exact (sort_errors asort p). Qed.
Print Assumptions C29_errors.

Example C29_example : exists q, pts_sort argsort ex_pts PtV = Ok q /\ triples q = [(pt2 4 1, oz 1); (pt2 2 3, oz 2); (pt2 0 0, oz 3); (pt2 1 5, oz 7)].
Proof. eexists. split; reflexivity. Qed.
Example C29_argsort_exists : is_argsort argsort.
Proof. exact argsort_is. Qed.

(** ** C30 *)
Theorem C30_remove_partial p inds :
  pts_ok p -> Forall (index_ok (length (xy p))) inds ->
  exists p', pts_remove p inds = (p', None) /\ pts_ok p' /\ same_units p' p /\
    keeps (fun k => ~ is_designated (length (xy p)) inds k) (xy p) (xy p') /\
    (pv p = [] -> keeps (fun k => ~ is_designated (length (xy p)) inds k) (triples p) (triples p')).
Proof. exact (remove_lemma p inds). Qed.
Print Assumptions C30_remove_partial.

Theorem C30_bad_index p inds :
  ~ Forall (index_ok (length (xy p))) inds -> pts_remove p inds = (p, Some IndexErr).
Proof. exact (remove_out p inds). Qed.
Print Assumptions C30_bad_index.

Theorem C30_cut_partial p ivx ivy :
  pts_ok p -> (ivx <> None \/ ivy <> None) ->
  exists p', pts_cut p ivx ivy = Ok p' /\ pts_ok p' /\ same_units p' p /\
    let P := (fun k => forall q, nth_error (xy p) k = Some q -> ~ in_area ivx ivy q) in
    keeps P (xy p) (xy p') /\ (pv p = [] -> keeps P (triples p) (triples p')) /\ (length (xy p') = length (xy p) -> p' = p).
Proof. exact (cut_lemma p ivx ivy). Qed.
Print Assumptions C30_cut_partial.

(** the values of all the points are lost *)
Theorem C30_values_lost_refuted p i :
  pts_ok p -> pv p <> [] -> index_ok (length (xy p)) i ->
  exists p', pts_remove p [i] = (p', None) /\ pv p' = [].
Proof. exact (remove_loses p i). Qed.
Print Assumptions C30_values_lost_refuted.

Theorem C30_cut_values_refuted : exists p p' ivx, pts_ok p /\ pv p <> [] /\ pts_cut p ivx None = Ok p' /\ xy p' <> [] /\ pv p' = [].
Proof. exists ex_pts. eexists. exists (Some (qz 1, qz 3)). split; [exact ex_pts_ok|]. split; [discriminate|]. split; [reflexivity|]. split; [discriminate|reflexivity]. Qed.
Print Assumptions C30_cut_values_refuted.
(** without any interval, cut raises *)
Theorem C30_cut_nothing_refuted p :
  pts_cut p None None = Err TypeErr.
Proof. exact (cut_nothing p). Qed.
Print Assumptions C30_cut_nothing_refuted.

Example C30_example : Forall (index_ok (length (xy ex_bare))) [0; -1]%Z /\ (exists p', pts_remove ex_bare [0; -1]%Z = (p', None) /\ xy p' = [pt2 4 1]) /\ pv ex_bare = [].
Proof. split; [repeat constructor; discriminate|]. split; [|reflexivity]. eexists. split; reflexivity. Qed.

(** ** C31 *)
(** the point is added although the call raises *)
Theorem C31_refuted p pt :
  pv p <> [] -> exists p', pts_add p pt None = (p', Some ValueErr) /\ xy p' = xy p ++ [pt] /\ p' <> p.
Proof. exact (add_missing p pt). Qed.
Print Assumptions C31_refuted.

Theorem C31_success_partial p pt v :
  pts_ok p -> v_matches p v ->
  exists p', pts_add p pt v = (p', None) /\ pts_ok p' /\ same_units p' p /\ triples p' = triples p ++ [(pt, v)].
Proof. exact (pts_add_lemma p pt v). Qed.
Print Assumptions C31_success_partial.

Example C31_example : pv ex_pts <> [] /\ v_matches ex_pts (oz 4) /\ v_matches ex_bare None.
Proof. split; [discriminate|]. split; reflexivity. Qed.

(** ** C32 *)
Theorem C32_density p rx ry pond :
  2 <= rx -> 2 <= ry -> (pond = true -> length (pv p) = length (xy p)) ->
  (exists a b, In a (xy p) /\ In b (xy p) /\ (fst a < fst b)%num) -> (exists a b, In a (xy p) /\ In b (xy p) /\ (snd a < snd b)%num) ->
  exists f dx dy ds, pts_density p rx ry pond = Ok f /\ (0 < dx)%num /\ (0 < dy)%num /\
    length (ax (sg f)) = rx /\ length (ay (sg f)) = ry /\
    (forall i, i < rx -> nths (ax (sg f)) i = (lmin (map fst (xy p)) + qn i * dx)%num) /\ nths (ax (sg f)) (rx - 1) = lmax (map fst (xy p)) /\
    (forall j, j < ry -> nths (ay (sg f)) j = (lmin (map snd (xy p)) + qn j * dy)%num) /\ nths (ay (sg f)) (ry - 1) = lmax (map snd (xy p)) /\
    (forall i j, i < rx -> j < ry -> at_ (msk f) i j = false /\ exists d, at_ (values f) i j = Some d /\
       (d * (dx * dy))%num = total (map snd (filter (fun t => (closest (ax (sg f)) (fst (fst t)) i && closest (ay (sg f)) (snd (fst t)) j)%bool) (weights pond p)))) /\
    flatten (values f) = map Some ds /\ (total ds * (dx * dy))%num = total (map snd (weights pond p)).
Proof. exact (density_lemma p rx ry pond). Qed.
Print Assumptions C32_density.

Example C32_example : (exists a b, In a (xy ex_pts) /\ In b (xy ex_pts) /\ (fst a < fst b)%num) /\
  (exists a b, In a (xy ex_pts) /\ In b (xy ex_pts) /\ (snd a < snd b)%num) /\ length (pv ex_pts) = length (xy ex_pts).
Proof. split; [|split; [|reflexivity]]; exists (pt2 0 0), (pt2 4 1); (split; [cbn; auto|split; [cbn; auto|reflexivity]]). Qed.

(** ** C43 *)
Definition ex_tp : tpoints := mktp [ex_pts; ex_bare; ex_bare] false (zs [1; 3; 8]%Z) second.
Lemma ex_tp_ok : tp_ok ex_tp.
Proof. split; [reflexivity|]. apply increasing_nondecreasing. incr. Qed.
Theorem C43_in_place t ivx ivy ivv t1 t2 :
  tp_ok t -> ttimes t <> [] -> (t1 <= last (ttimes t) (qz 0))%num -> (nths (ttimes t) 0 <= t2)%num ->
  exists c, tp_crop t ivx ivy ivv (Some (t1, t2)) true = Ok (c, c) /\ tp_ok c /\ tunit c = tunit t /\
    snapshots c = map (crop_snapshot ivx ivy ivv) (filter (fun s => in_iv (Some (t1, t2)) (fst s)) (snapshots t)).
Proof. exact (tp_crop_inplace t ivx ivy ivv t1 t2). Qed.
Print Assumptions C43_in_place.

Theorem C43_in_place_no_time t ivx ivy ivv :
  tp_ok t ->
  exists c, tp_crop t ivx ivy ivv None true = Ok (c, c) /\ tp_ok c /\ tunit c = tunit t /\ snapshots c = map (crop_snapshot ivx ivy ivv) (snapshots t).
Proof. exact (tp_crop_inplace_all t ivx ivy ivv). Qed.
Print Assumptions C43_in_place_no_time.

Theorem C43_copy_times_only_partial t t1 t2 :
  tp_ok t -> Forall pts_ok (tsets t) -> ttimes t <> [] -> (t1 <= last (ttimes t) (qz 0))%num -> (nths (ttimes t) 0 <= t2)%num ->
  exists c, tp_crop t None None None (Some (t1, t2)) false = Ok (c, t) /\ tp_ok c /\ tunit c = tunit t /\
    snapshots c = filter (fun s => in_iv (Some (t1, t2)) (fst s)) (snapshots t).
Proof. exact (tp_crop_copy t t1 t2). Qed.
Print Assumptions C43_copy_times_only_partial.

(** the copy is not cropped, the original is *)
Theorem C43_refuted : exists t ivx c t', tp_ok t /\ tp_crop t ivx None None None false = Ok (c, t') /\ c = t /\ t' <> t.
Proof.
  exists ex_tp, (Some (qz 1, qz 2)). eexists. eexists. split; [exact ex_tp_ok|]. split; [reflexivity|]. split; [reflexivity|].
  intro H. apply (f_equal (fun t => map (fun p => length (xy p)) (tsets t))) in H. vm_compute in H. discriminate.
Qed.
Print Assumptions C43_refuted.
Example C43_example : tp_ok ex_tp /\ ttimes ex_tp <> [] /\ (qz 2 <= last (ttimes ex_tp) (qz 0))%num /\ (nths (ttimes ex_tp) 0 <= qz 5)%num /\ Forall pts_ok (tsets ex_tp) /\
  exists c, tp_crop ex_tp (Some (qz 1, qz 4)) None None (Some (qz 2, qz 5)) true = Ok (c, c) /\ ttimes c = [qz 3] /\ map xy (tsets c) = [[pt2 4 1; pt2 2 3]].
Proof.
  split; [exact ex_tp_ok|]. split; [discriminate|]. split; [discriminate|]. split; [discriminate|].
  split; [repeat constructor; try exact ex_bare_ok; exact ex_pts_ok|]. eexists. split; [reflexivity|]. split; reflexivity.
Qed.

(** ** C44 *)
Definition ex_op : opoints := mkop ex_bare [[pt2 1 0]; [pt2 0 1]; [pt2 1 1]].
Lemma ex_op_ok : op_ok ex_op.
Proof. split; [exact ex_bare_ok|reflexivity]. Qed.
(** the iteration is right exactly when all the points are the same *)
Theorem C44_exact_partial o :
  op_ok o -> (op_iter o = oriented o <-> forall t, In t (triples (opt o)) -> hd_error (triples (opt o)) = Some t).
Proof. exact (op_iter_iff o). Qed.
Print Assumptions C44_exact_partial.

Theorem C44_refuted : exists o, op_ok o /\ op_iter o <> oriented o.
Proof.
  exists ex_op. split; [exact ex_op_ok|]. intro H. apply (op_iter_iff ex_op ex_op_ok) with (t := (pt2 4 1, None)) in H; [|cbn; auto].
  apply (f_equal (fun o => match o with Some t => qeqb (fst (fst t)) (qz 4) | None => true end)) in H. vm_compute in H. discriminate.
Qed.
Print Assumptions C44_refuted.
Example C44_example : let o := mkop (mkpts [pt2 1 2] (zs [5]%Z) metre metre second) [[pt2 1 0]] in op_ok o /\ op_iter o = [((pt2 1 2, oz 5), [pt2 1 0])].
Proof. split; [split; [right; reflexivity|reflexivity]|reflexivity]. Qed.

(** ** C68: values and points stay aligned *)
Theorem C68_step_partial asort p o :
  is_argsort asort -> pts_ok p -> tlegal p o -> pts_ok (fst (tstep asort p o)).
Proof. exact (tstep_ok asort p o). Qed.
Print Assumptions C68_step_partial.

Theorem C68_history_partial asort p ops :
  is_argsort asort -> pts_ok p -> tlegal_run asort p ops -> pts_ok (trun asort p ops).
Proof. exact (trun_ok asort p ops). Qed.
Print Assumptions C68_history_partial.

Theorem C68_value_refuted p pt z :
  pv p = [] -> xy p <> [] -> exists p', pts_add p pt (Some z) = (p', None) /\ ~ pts_ok p'.
Proof. exact (add_unvalued p pt z). Qed.
Print Assumptions C68_value_refuted.

Example C68_example : pts_ok ex_bare /\ tlegal_run argsort ex_bare [TAdd (pt2 1 1) None; TSort PtX; TSetV (zs [1; 2; 3; 4]%Z); TAdd (pt2 0 3) (oz 8); TCrop None None (Some (qz 2, qz 9)); TRemove [0]%Z].
Proof. split; [exact ex_bare_ok|]. vm_compute. tauto. Qed.

(** ** C69: the sum of two point sets *)
Theorem C69_sum_partial p q :
  pts_ok p -> pts_ok q -> xy p <> [] -> xy q <> [] -> dims_match p q ->
  good_unit (ptx p) -> good_unit (pty p) -> good_unit (ptv p) ->
  sc (ptx p) = sc (ptx q) -> sc (pty p) = sc (pty q) -> sc (ptv p) = sc (ptv q) ->
  (pv p = [] <-> pv q = []) ->
  exists r, pts_plus p q = (Ok r, q) /\ pts_ok r /\ same_units r p /\ phys r = phys p ++ phys q.
Proof. exact (plus_lemma p q). Qed.
Print Assumptions C69_sum_partial.

Theorem C69_empty_left p q :
  xy p = [] -> pts_plus p q = (Ok q, q).
Proof. exact (plus_empty_l p q). Qed.
Print Assumptions C69_empty_left.

Theorem C69_empty_right p q :
  xy p <> [] -> xy q = [] -> pts_plus p q = (Ok p, q).
Proof. exact (plus_empty_r p q). Qed.
Print Assumptions C69_empty_right.

Theorem C69_incompatible p q :
  xy p <> [] -> xy q <> [] -> ~ dims_match p q -> pts_plus p q = (Err ValueErr, q).
Proof. exact (plus_incompatible p q). Qed.
Print Assumptions C69_incompatible.

(** values on one side only: an exception, although the documentation says that v is then dropped *)
Theorem C69_mixed p q :
  pts_ok p -> pts_ok q -> xy p <> [] -> xy q <> [] -> dims_match p q ->
  (pv p = [] /\ pv q <> [] \/ pv p <> [] /\ pv q = []) -> fst (pts_plus p q) = Err ValueErr.
Proof. exact (plus_mixed p q). Qed.
Print Assumptions C69_mixed.

(** the conversion factor is inverted *)
Definition ex_mm : points := mkpts [pt2 1000 2000] [] millimetre metre second.
Theorem C69_scales_refuted : exists p q r q', pts_ok p /\ pts_ok q /\ dims_match p q /\ good_unit (ptx p) /\ good_unit (ptx q) /\
  pts_plus p q = (Ok r, q') /\ phys r <> phys p ++ phys q.
Proof.
  exists ex_bare, ex_mm. eexists. eexists. split; [exact ex_bare_ok|]. split; [left; reflexivity|]. split; [repeat split|]. split; [reflexivity|]. split; [reflexivity|].
  split; [reflexivity|]. intro H. apply (f_equal (map (fun t => qltb (fst (fst t)) (qz 10)))) in H. vm_compute in H. discriminate.
Qed.
Print Assumptions C69_scales_refuted.
Example C69_example : pts_ok ex_bare /\ xy ex_bare <> [] /\ dims_match ex_bare ex_bare /\ good_unit (ptx ex_bare) /\ good_unit (pty ex_bare) /\ good_unit (ptv ex_bare).
Proof. split; [exact ex_bare_ok|]. split; [discriminate|]. repeat split. Qed.

(** ** C26, for point sets: the coordinates of the second operand are converted in place *)
Theorem C26_points_add_refuted : exists p q r q', pts_ok p /\ pts_ok q /\ pts_plus p q = (Ok r, q') /\ q' <> q.
Proof.
  exists ex_bare, ex_mm. eexists. eexists. split; [exact ex_bare_ok|]. split; [left; reflexivity|]. split; [reflexivity|].
  intro H. apply (f_equal (fun p => map (fun t => qltb (fst t) (qz 10000)) (xy p))) in H. vm_compute in H. discriminate.
Qed.
Print Assumptions C26_points_add_refuted.
Theorem C26_points_add_partial : forall p q, (xy p = [] \/ xy q = [] \/ ~ dims_match p q \/
  (good_unit (ptx q) /\ good_unit (pty q) /\ sc (ptx p) = sc (ptx q) /\ sc (pty p) = sc (pty q))) -> snd (pts_plus p q) = q.
Proof.
  intros p q H. destruct (xy p) as [|a l] eqn:P; [rewrite plus_empty_l by exact P; reflexivity|].
  assert (NP : xy p <> []) by (rewrite P; discriminate).
  destruct (xy q) as [|b m] eqn:Q; [rewrite plus_empty_r by assumption; reflexivity|].
  assert (NQ : xy q <> []) by (rewrite Q; discriminate).
  destruct H as [H|[H|[H|(G1 & G2 & E1 & E2)]]]; [discriminate|discriminate|rewrite plus_incompatible by assumption; reflexivity|].
  unfold pts_plus. rewrite P, Q. destruct (negb _); [reflexivity|]. cbn [snd]. rewrite E1, E2.
  destruct q as [qx qv u w z]; cbn [xy pv ptx pty ptv] in *. subst qx. f_equal.
  rewrite <- (map_id (b :: m)) at 2. apply map_ext. intros [c d]. cbn [fst snd id]. f_equal; qfield; apply qgt_neq; assumption.
Qed.
Print Assumptions C26_points_add_partial.

(** ** C08, C09, C10 for point sets *)
Theorem C08_points p a new :
  pts_ok p -> good_unit new -> a <> PtOther ->
  (dim (unit_of a p) = dim new -> exists p', pts_change_unit p a new = (p', None) /\ pts_ok p' /\ with_unit a p p' new /\ phys p' = phys p) /\
  (dim (unit_of a p) <> dim new -> pts_change_unit p a new = (p, Some UnitErr)).
Proof. exact (change_unit_lemma p a new). Qed.
Print Assumptions C08_points.

Theorem C08_points_back p a new p' :
  good_unit new -> good_unit (unit_of a p) -> a <> PtOther ->
  pts_change_unit p a new = (p', None) -> pts_change_unit p' a (unit_of a p) = (p, None).
Proof. exact (change_unit_back p a new p'). Qed.
Print Assumptions C08_points_back.

Theorem C09_points p x y :
  pts_ok p -> pts_ok (pts_set_origin p x y) /\ same_units (pts_set_origin p x y) p /\
  triples (pts_set_origin p x y) = map (fun t => ((shifted x (fst (fst t)), shifted y (snd (fst t))), snd t)) (triples p).
Proof. exact (origin_lemma p x y). Qed.
Print Assumptions C09_points.

Theorem C09_points_back p x y :
  pts_set_origin (pts_set_origin p (Some x) (Some y)) (Some (- x)%num) (Some (- y)%num) = p.
Proof. exact (origin_back p x y). Qed.
Print Assumptions C09_points_back.

Theorem C10_points p sx sy sv :
  pts_ok p -> pts_ok (pts_scale p sx sy sv) /\
  triples (pts_scale p sx sy sv) =
  map (fun t => ((fst (fst t) * sfact sx, snd (fst t) * sfact sy), option_map (fun z => z * sfact sv) (snd t)))%num (triples p).
Proof. exact (scale_lemma p sx sy sv). Qed.
Print Assumptions C10_points.

Example C08_points_example : exists p', pts_change_unit ex_pts PtX millimetre = (p', None) /\ nth 1 (xy p') (pt2 0 0) = pt2 4000 1.
Proof. eexists. split; [reflexivity|]. reflexivity. Qed.

(** ** C70: rotations of a point set; c and s are the cosine and the sine of the angle *)
Theorem C70_rigid_motion p c s :
  pts_ok p -> (c * c + s * s = 1)%num ->
  pts_ok (pts_rotate p c s) /\ same_units (pts_rotate p c s) p /\
  map snd (triples (pts_rotate p c s)) = map snd (triples p) /\
  (forall i j a b a' b', nth_error (xy p) i = Some a -> nth_error (xy p) j = Some b ->
     nth_error (xy (pts_rotate p c s)) i = Some a' -> nth_error (xy (pts_rotate p c s)) j = Some b' ->
     sqdist a' b' = sqdist a b /\ sqdist a' (qz 0, qz 0) = sqdist a (qz 0, qz 0)) /\
  (forall i a a', nth_error (xy p) i = Some a -> nth_error (xy (pts_rotate p c s)) i = Some a' ->
     (fst a * fst a' + snd a * snd a' = c * sqdist a (0, 0) /\ fst a * snd a' - snd a * fst a' = s * sqdist a (0, 0))%num) /\
  pts_rotate (pts_rotate p c s) c (- s) = p.
Proof. exact (rotate_lemma p c s). Qed.
Print Assumptions C70_rigid_motion.

Theorem C70_compose p c s c' s' :
  pts_rotate (pts_rotate p c s) c' s' = pts_rotate p (c * c' - s * s') (c * s' + s * c').
Proof. exact (rotate_compose p c s c' s'). Qed.
Print Assumptions C70_compose.

Example C70_example : pts_ok ex_pts /\ (qq 3 5 * qq 3 5 + qq 4 5 * qq 4 5 = 1)%num.
Proof. split; [exact ex_pts_ok|qc]. Qed.

(** ** C71: decompose *)
Theorem C71_decompose_partial p :
  length (pv p) = length (xy p) ->
  exists l, pts_decompose p = Ok l /\ Forall (fun q => length (xy q) = 1 /\ pts_ok q /\ same_units q p) l /\
            flat_map triples l = triples p.
Proof. exact (decompose_lemma p). Qed.
Print Assumptions C71_decompose_partial.

Theorem C71_no_values_refuted p :
  pv p = [] -> 2 <= length (xy p) -> pts_decompose p = Err GenericErr.
Proof. exact (decompose_no_v p). Qed.
Print Assumptions C71_no_values_refuted.

Example C71_example : length (pv ex_pts) = length (xy ex_pts) /\ pv ex_bare = [] /\ 2 <= length (xy ex_bare).
Proof. repeat split. cbn. lia. Qed.

(** ** C72: export to a profile *)
Theorem C72_export p a b :
  pts_ok p -> a <> PtOther -> b <> PtOther -> (a = PtV \/ b = PtV -> pv p <> []) ->
  exists prof, pts_to_profile p a b = Ok prof /\ prof_ok prof /\ pux prof = unit_of a p /\ puy prof = unit_of b p /\
    Permutation (map (fun t => (Some (sx t), sy t, smask t)) (samples prof)) (map (fun t => (get a t, get b t, false)) (triples p)).
Proof. exact (export_lemma p a b). Qed.
Print Assumptions C72_export.

Example C72_example : exists prof, pts_to_profile ex_pts PtX PtV = Ok prof /\ px prof = zs [0; 1; 2; 4]%Z /\ py prof = [oz 3; oz 7; oz 2; oz 1].
Proof. eexists. split; [reflexivity|]. split; reflexivity. Qed.

(** ** C73: velocity of the points along their trajectory *)
Theorem C73_velocity asort p incr :
  is_argsort asort -> length (pv p) = length (xy p) -> xy p <> [] -> NoDup (pv p) -> 1 <= incr ->
  exists tr a b, Permutation tr (combine (pv p) (xy p)) /\ increasing (map fst tr) /\
    pts_velocity asort p incr = Ok (a, b) /\ prof_ok a /\ prof_ok b /\
    pux a = ptv p /\ pux b = ptv p /\ puy a = unit_div (ptx p) (ptv p) /\ puy b = unit_div (pty p) (ptv p) /\
    (forall k, nth_error (samples a) k = match nth_error tr (k * incr), nth_error tr (S k * incr) with
                                         | Some u, Some w => Some (speed_sample fst u w) | _, _ => None end) /\
    (forall k, nth_error (samples b) k = match nth_error tr (k * incr), nth_error tr (S k * incr) with
                                         | Some u, Some w => Some (speed_sample snd u w) | _, _ => None end).
Proof. exact (velocity_lemma asort p incr). Qed.
Print Assumptions C73_velocity.

Theorem C73_uniform_motion asort p incr x0 y0 cx cy :
  is_argsort asort -> length (pv p) = length (xy p) -> xy p <> [] -> NoDup (pv p) -> 1 <= incr ->
  (forall t q, In (t, q) (combine (pv p) (xy p)) -> fst q = x0 + cx * t /\ snd q = y0 + cy * t)%num ->
  exists a b, pts_velocity asort p incr = Ok (a, b) /\ (forall t, In t (samples a) -> sy t = Some cx) /\ (forall t, In t (samples b) -> sy t = Some cy).
Proof. exact (velocity_uniform asort p incr x0 y0 cx cy). Qed.
Print Assumptions C73_uniform_motion.

Example C73_example : is_argsort argsort /\ length (pv ex_pts) = length (xy ex_pts) /\ xy ex_pts <> [] /\ NoDup (pv ex_pts).
Proof.
  split; [exact argsort_is|]. split; [reflexivity|]. split; [discriminate|].
  repeat constructor; cbn; intuition; match goal with H : _ = _ |- _ => qneq H end.
Qed.

(** ** C74: evolution of a field along the points *)
Theorem C74_refuted : forall getv p has_v, xy p <> [] -> (forall t, In t (xy p) -> exists v, getv (fst t) (snd t) = Ok v) ->
  pts_evolution getv p has_v = Err UnboundErr.
Proof.
  intros getv p b NE H. unfold pts_evolution. destruct (xy p) as [|q l]; [congruence|].
  assert (G : exists ys, mapM (fun t => getv (fst t) (snd t)) (q :: l) = Ok ys).
  { clear NE. induction (q :: l) as [|t r IH]; [eexists; reflexivity|]. cbn [mapM]. destruct (H t) as (v & E); [now left|].
    destruct IH as (ys & E2); [intros; apply H; now right|]. rewrite E. cbn [bind]. rewrite E2. eexists; reflexivity. }
  destruct G as (ys & ->). reflexivity.
Qed.
Print Assumptions C74_refuted.
Example C74_example : xy ex_pts <> [] /\ pts_evolution (fun x y => Ok (Some x)) ex_pts true = Err UnboundErr.
Proof. split; [discriminate|reflexivity]. Qed.

(** ** C75: points keep their own directions *)
Theorem C75_add_partial o pt d v :
  op_ok o -> v_matches (opt o) v -> (forall d', In d' (ori o) -> length d' = length d) ->
  exists o', op_add o pt d v = (o', None) /\ op_ok o' /\ same_units (opt o') (opt o) /\ oriented o' = oriented o ++ [((pt, v), d)].
Proof. exact (op_add_lemma o pt d v). Qed.
Print Assumptions C75_add_partial.

Theorem C75_remove_partial o inds :
  op_ok o -> Forall (index_ok (length (xy (opt o)))) inds ->
  exists o', op_remove o inds = (o', None) /\ op_ok o' /\ same_units (opt o') (opt o) /\
    keeps (fun k => ~ is_designated (length (xy (opt o))) inds k) (combine (xy (opt o)) (ori o)) (combine (xy (opt o')) (ori o')) /\
    (pv (opt o) = [] -> keeps (fun k => ~ is_designated (length (xy (opt o))) inds k) (oriented o) (oriented o')).
Proof. exact (op_remove_lemma o inds). Qed.
Print Assumptions C75_remove_partial.

Theorem C75_crop_partial o ivx ivy ivv :
  op_ok o ->
  exists o', op_crop o ivx ivy ivv = (o', None) /\ op_ok o' /\ same_units (opt o') (opt o) /\
    oriented o' = filter (fun t => in_box ivx ivy ivv (fst t)) (oriented o).
Proof. exact (op_crop_lemma o ivx ivy ivv). Qed.
Print Assumptions C75_crop_partial.

Theorem C75_sort_refuted : forall asort, is_argsort asort -> exists o o', op_ok o /\ op_sort asort o PtX = Ok o' /\ ~ Permutation (oriented o') (oriented o).
Proof.
  intros asort AS. set (o := mkop (mkpts [pt2 2 0; pt2 1 0] [] metre metre second) [[pt2 1 0]; [pt2 0 1]]).
  assert (OK : op_ok o) by (split; [left; reflexivity|reflexivity]).
  destruct (sort_lemma asort (opt o) PtX AS (proj1 OK) ltac:(discriminate) ltac:(discriminate)) as (q & E & OKq & _ & P & S0).
  exists o, (mkop q (ori o)). split; [exact OK|]. split; [unfold op_sort; rewrite E; reflexivity|].
  assert (T : triples q = [(pt2 1 0, None); (pt2 2 0, None)]).
  { cbn in P. apply Permutation_sym, Permutation_length_2_inv in P. destruct P as [T|T]; [|exact T].
    exfalso. rewrite T in S0. specialize (S0 0 1 ltac:(lia) ltac:(cbn; lia)). cbn in S0. apply qleb_le in S0. vm_compute in S0. discriminate. }
  unfold oriented; cbn [opt ori]. rewrite T. intro PP. apply (Permutation_in ((pt2 1 0, None), [pt2 1 0])) in PP; [|cbn; auto].
  cbn [combine o opt ori In] in PP. destruct PP as [PP|[PP|[]]];
    apply (f_equal (fun t => (qeqb (fst (fst (fst t))) (qz 1), match snd t with d :: _ => qeqb (fst d) (qz 1) | [] => false end))) in PP; vm_compute in PP; discriminate.
Qed.
Print Assumptions C75_sort_refuted.
Theorem C75_cut_refuted : exists o o', op_ok o /\ op_cut o (Some (qz 1, qz 3)) None = Ok o' /\ length (xy (opt o')) < length (ori o').
Proof. exists ex_op. eexists. split; [exact ex_op_ok|]. split; [reflexivity|]. vm_compute. lia. Qed.
Print Assumptions C75_cut_refuted.
(** a refused addition leaves a point without direction *)
Theorem C75_failed_add_refuted : exists o o' pt d, op_ok o /\ snd (op_add o pt d None) <> None /\ o' = fst (op_add o pt d None) /\ length (ori o') < length (xy (opt o')).
Proof.
  exists (mkop ex_pts [[pt2 1 0]; [pt2 0 1]; [pt2 1 1]; [pt2 1 2]]). eexists. exists (pt2 1 1), [pt2 1 1].
  split; [split; [exact ex_pts_ok|reflexivity]|]. split; [discriminate|]. split; [reflexivity|]. vm_compute. lia.
Qed.
Print Assumptions C75_failed_add_refuted.
Example C75_example : op_ok ex_op /\ v_matches (opt ex_op) None /\ (forall d', In d' (ori ex_op) -> length d' = length [pt2 5 5]) /\
  exists o', op_crop ex_op (Some (qz 1, qz 3)) None None = (o', None) /\ oriented o' = [((pt2 2 3, None), [pt2 1 1])].
Proof.
  split; [exact ex_op_ok|]. split; [reflexivity|]. split; [intros d' H; repeat (destruct H as [<-|H]; [reflexivity|]); contradiction|].
  eexists. split; reflexivity.
Qed.

(** ** C76: temporal point sets stay sorted and aligned *)
Theorem C76_add_partial asort t p time u :
  is_argsort asort -> tp_ok t -> tarr t = false -> tsets t = [] \/ u = tunit t -> (0 < sc u)%num ->
  exists t', tp_add asort t p time u = (t', None) /\ tp_ok t' /\ tarr t' = false /\ tunit t' = u /\ Permutation (snapshots t') ((time, p) :: snapshots t).
Proof. exact (tp_add_lemma asort t p time u). Qed.
Print Assumptions C76_add_partial.

Theorem C76_remove_partial t i :
  tp_ok t -> index_ok (length (tsets t)) i ->
  exists t', tp_remove t [i] = (t', None) /\ tp_ok t' /\ tunit t' = tunit t /\
    keeps (fun k => ~ designates (length (tsets t)) i k) (snapshots t) (snapshots t').
Proof. exact (tp_remove_lemma t i). Qed.
Print Assumptions C76_remove_partial.

(** the conversion of the time is inverted: the set of time 2 ms is stored at 2000 s *)
Theorem C76_time_unit_refuted : exists t p time u t', tp_ok t /\ dim u = dim (tunit t) /\ tp_add argsort t p time u = (t', None) /\
  tunit t' = tunit t /\ ~ (exists s, In s (snapshots t') /\ (fst s * sc (tunit t') = time * sc u)%num).
Proof.
  exists ex_tp, ex_bare, (qz 2), millisecond. eexists. split; [exact ex_tp_ok|]. split; [reflexivity|]. split; [reflexivity|]. split; [reflexivity|].
  intros (s & I & H). cbn in I. repeat (destruct I as [<-|I]; [qneq H|]). contradiction.
Qed.
Print Assumptions C76_time_unit_refuted.
(** after a removal, the next addition raises and leaves one time too many *)
Theorem C76_add_after_remove_refuted : exists t p time u t', tp_ok t /\ snd (tp_remove t [0]%Z) = None /\
  tp_add argsort (fst (tp_remove t [0]%Z)) p time u = (t', Some AttrErr) /\ ~ tp_ok t'.
Proof.
  exists ex_tp, ex_bare, (qz 2), second. eexists. split; [exact ex_tp_ok|]. split; [reflexivity|]. split; [reflexivity|]. intros [L _]. vm_compute in L. discriminate.
Qed.
Print Assumptions C76_add_after_remove_refuted.
(** removing several sets at once removes others than those designated *)
Theorem C76_remove_list_refuted : exists t t', tp_ok t /\ tp_remove t [0; 1]%Z = (t', None) /\ ttimes t = zs [1; 3; 8]%Z /\ ttimes t' = zs [3]%Z.
Proof. exists ex_tp. eexists. split; [exact ex_tp_ok|]. split; [reflexivity|]. split; reflexivity. Qed.
Print Assumptions C76_remove_list_refuted.
Example C76_example : is_argsort argsort /\ tp_ok ex_tp /\ tarr ex_tp = false /\ (0 < sc (tunit ex_tp))%num /\ index_ok (length (tsets ex_tp)) (-1)%Z /\
  exists t', tp_add argsort ex_tp ex_pts (qz 2) second = (t', None) /\ ttimes t' = zs [1; 2; 3; 8]%Z.
Proof.
  split; [exact argsort_is|]. split; [exact ex_tp_ok|]. split; [reflexivity|]. split; [reflexivity|]. split; [split; cbn; lia|].
  eexists. split; [reflexivity|]. vm_compute. repeat f_equal; try qc.
Qed.
