(** * PropBl: boundary layer thicknesses and profiles of a field (C117, C118, C119, C120, C121, C122).
    Statements, examples and counterexamples; the proofs are in BlProofs*.v, the vocabulary in BlSpec, ProfileSpec and FieldSpec. *)
From Coq Require Import Lia.
From Verif Require Import Num Res ListLib SortLib Arr FieldModel ScalarFieldModel FieldSpec PointsSpec ProfileModel ProfileSpec Concrete TemporalEx TurbEx
  BlModel BlSpec BlProofs BlProofs2 BlProofs3 BlProofs4 BlProofs5 BlEx.

(** ** C117: boundary layer thickness *)
Theorem C117_partial p l m perc x0 u0 r :
  curve p l -> increasing (map fst l) -> greatest l m -> l = (x0, u0) :: r ->
  (u0 < m * perc <= m)%num ->
  exists d, bl_thickness p perc = Ok (Some d) /\ (x0 < d)%num /\ (exists x u, In (x, u) l /\ (d <= x)%num) /\ on_polyline l d (m * perc)%num /\
    ((exists x, In (x, m * perc)%num l) -> In (d, m * perc)%num l /\ forall x, In (x, m * perc)%num l -> (d <= x)%num) /\
    ((forall x, ~ In (x, m * perc)%num l) -> forall x u, In (x, u) l -> (x <= d)%num -> (u < m * perc)%num).
Proof. exact (thickness_lemma p l m perc x0 u0 r). Qed.
Print Assumptions C117_partial.

Theorem C117_monotone_partial p l m perc x0 u0 r :
  curve p l -> increasing (map fst l) -> greatest l m -> l = (x0, u0) :: r -> monotone l ->
  (u0 < m * perc <= m)%num ->
  exists d, bl_thickness p perc = Ok (Some d) /\ on_polyline l d (m * perc)%num /\
    forall x u, In (x, u) l -> ((x < d)%num -> (u < m * perc)%num) /\ ((d <= x)%num -> (m * perc <= u)%num).
Proof. exact (thickness_monotone p l m perc x0 u0 r). Qed.
Print Assumptions C117_monotone_partial.

Example C117_example : curve (plain_prof ex_bl) ex_bl /\ increasing (map fst ex_bl) /\ greatest ex_bl (qz 20) /\ (exists r, ex_bl = (qz 1, qz 0) :: r) /\ (qz 0 < qz 20 * qq 19 20 <= qz 20)%num /\ monotone ex_bl /\
  bl_thickness (plain_prof ex_bl) (qq 19 20) = Ok (Some (qz 4)).
Proof.
  split; [exact ex_bl_curve|]. split; [exact ex_bl_inc|]. split; [exact ex_bl_great|]. split; [eexists; reflexivity|]. split; [split; [now apply qltb_lt|now apply qleb_le]|]. split.
  - intros x u x' u' H H' L. cbn in H, H'.
    repeat (destruct H as [H|H]; [injection H as <- <-|]); try contradiction;
      repeat (destruct H' as [H'|H']; [injection H' as <- <-; first [now apply qleb_le|exfalso; apply qleb_le in L; discriminate L]|]); contradiction.
  - destruct (ok_ex (bl_thickness (plain_prof ex_bl) (qq 19 20)) (fun o => omb o (qz 4))) as (o & E & H); [vmr|]. rewrite E. f_equal. now apply omb_eq.
Qed.
(** a sample with exactly the value sought hides an earlier crossing: 0, 20, 19, 20 at 0, 1, 2, 3 reaches 19 before x = 1, yet the thickness is 2 *)
Theorem C117_hidden_refuted : exists p l m d, curve p l /\ increasing (map fst l) /\ greatest l m /\ bl_thickness p (qq 19 20) = Ok (Some d) /\
  exists d', (d' < d)%num /\ on_polyline l d' (m * qq 19 20)%num.
Proof.
  pose (l := pairs_of [(0, 0); (1, 20); (2, 19); (3, 20)]%Z). exists (plain_prof l), l, (qz 20), (qz 2).
  assert (I : increasing (map fst l)) by incr. split; [now apply plain_curve, increasing_nondecreasing|]. split; [exact I|]. split; [split; [exists (qz 1); cbn; tauto|pts]|].
  split; [destruct (ok_ex (bl_thickness (plain_prof l) (qq 19 20)) (fun o => omb o (qz 2))) as (o & E & H); [vmr|]; rewrite E; f_equal; now apply omb_eq|].
  exists (qq 19 20). split; [now apply qltb_lt|]. right. exists 0%nat, (qz 0), (qz 0), (qz 1), (qz 20). split; [reflexivity|]. split; [reflexivity|]. split; [split; now apply qltb_lt|]. unfold on_line. now apply Qc_is_canon.
Qed.
Print Assumptions C117_hidden_refuted.
(** a uniform profile has no thickness: the call raises *)
Theorem C117_uniform_refuted p l m perc :
  curve p l -> l <> [] -> (forall x u, In (x, u) l -> u = m) -> (m * perc)%num <> m -> bl_thickness p perc = Err IndexErr.
Proof. exact (uniform_fails p l m perc). Qed.
Print Assumptions C117_uniform_refuted.

Example C117_uniform_example : let l := pairs_of [(0, 3); (1, 3); (2, 3)]%Z in curve (plain_prof l) l /\ l <> [] /\ (forall x u, In (x, u) l -> u = qz 3) /\ (qz 3 * qq 19 20)%num <> qz 3.
Proof. cbv zeta. split; [apply plain_curve, increasing_nondecreasing; incr|]. split; [discriminate|]. split; [pts|discriminate]. Qed.
Theorem C117_masked p perc :
  (forall b, In b (pm p) -> b = true) -> bl_thickness p perc = Ok (Some 0%num) /\ displ_thickness p = Ok (Some 0%num) /\ momentum_thickness p = Ok (Some 0%num).
Proof. exact (all_masked_zero p perc). Qed.
Print Assumptions C117_masked.

Example C117_masked_example : let p := mkprof (zs [0; 1]%Z) [None; None] [true; true] metre second in forall b, In b (pm p) -> b = true.
Proof. cbn. intuition. Qed.

(** ** C118: displacement and momentum thicknesses *)
Theorem C118_value_partial p l m x0 u0 r :
  curve p l -> from_wall l -> greatest l m -> l = (x0, u0) :: r -> (u0 < m * qq 19 20 <= m)%num ->
  exists d mk, bl_thickness p (qq 19 20) = Ok (Some d) /\ (0 < d)%num /\ (x0 < d)%num /\ walled (upto l d) <> [] /\ greatest (walled (upto l d)) mk /\
    (forall g, mk = 0%num -> integral_thickness g p = Ok None) /\
    (forall g, mk <> 0%num -> integral_thickness g p = Ok (area_of g mk (walled (upto l d)))).
Proof. exact (integral_lemma p l m x0 u0 r). Qed.
Print Assumptions C118_value_partial.

Theorem C118_ordered_partial p l m x0 u0 r :
  curve p l -> from_wall l -> greatest l m -> l = (x0, u0) :: r -> (u0 < m * qq 19 20 <= m)%num ->
  (forall x u, In (x, u) l -> (0 <= u)%num) ->
  exists d, bl_thickness p (qq 19 20) = Ok (Some d) /\
    ((forall x u, In (x, u) l -> (x <= d)%num -> u = 0%num) -> displ_thickness p = Ok None /\ momentum_thickness p = Ok None /\ shape_factor p = Ok None) /\
    ((exists x u, In (x, u) l /\ (x <= d)%num /\ u <> 0%num) ->
       exists a b, displ_thickness p = Ok (Some a) /\ momentum_thickness p = Ok (Some b) /\ (0 <= b)%num /\ (b <= a)%num /\ (a <= d)%num /\
         (b <> 0%num -> exists h, shape_factor p = Ok (Some h) /\ (1 <= h)%num)).
Proof. exact (thicknesses_ordered p l m x0 u0 r). Qed.
Print Assumptions C118_ordered_partial.

Example C118_example : from_wall ex_bl /\ (forall x u, In (x, u) ex_bl -> (0 <= u)%num) /\
  displ_thickness (plain_prof ex_bl) = Ok (Some (qq 11 6)) /\ momentum_thickness (plain_prof ex_bl) = Ok (Some (qq 2 9)) /\ shape_factor (plain_prof ex_bl) = Ok (Some (qq 33 4)).
Proof.
  split; [exact ex_bl_wall|]. split; [pts|]. split; [|split].
  - destruct (ok_ex (displ_thickness (plain_prof ex_bl)) (fun o => omb o (qq 11 6))) as (o & E & H); [vmr|]. rewrite E. f_equal. now apply omb_eq.
  - destruct (ok_ex (momentum_thickness (plain_prof ex_bl)) (fun o => omb o (qq 2 9))) as (o & E & H); [vmr|]. rewrite E. f_equal. now apply omb_eq.
  - destruct (ok_ex (shape_factor (plain_prof ex_bl)) (fun o => omb o (qq 33 4))) as (o & E & H); [vmr|]. rewrite E. f_equal. now apply omb_eq.
Qed.
(** the integral stops at the last sample before the thickness and is normalised by the velocity there, not by the free stream:
    velocities 0, 1, 10 at 0, 1, 2 give 1/2 although the defect of the first unit of length alone is 19/20 *)
Theorem C118_free_stream_refuted : exists p l m d, curve p l /\ from_wall l /\ greatest l m /\ (forall x u, In (x, u) l -> (0 <= u)%num) /\ bl_thickness p (qq 19 20) = Ok (Some d) /\ (1 < d)%num /\
  displ_thickness p = Ok (Some (qq 1 2)) /\ area_of (fun u => 1 - u)%num m (filter (fun t => qleb (fst t) 1%num) l) = Some (qq 19 20).
Proof.
  pose (l := pairs_of [(0, 0); (1, 1); (2, 10)]%Z). exists (plain_prof l), l, (qz 10), (qq 35 18).
  assert (I : increasing (map fst l)) by incr. split; [now apply plain_curve, increasing_nondecreasing|]. split; [split; [exact I|pts]|]. split; [split; [exists (qz 2); cbn; tauto|pts]|]. split; [pts|].
  split; [destruct (ok_ex (bl_thickness (plain_prof l) (qq 19 20)) (fun o => omb o (qq 35 18))) as (o & E & H); [vmr|]; rewrite E; f_equal; now apply omb_eq|].
  split; [now apply qltb_lt|]. split.
  - destruct (ok_ex (displ_thickness (plain_prof l)) (fun o => omb o (qq 1 2))) as (o & E & H); [vmr|]. rewrite E. f_equal. now apply omb_eq.
  - apply omb_eq. vmr.
Qed.
Print Assumptions C118_free_stream_refuted.
(** a layer thinner than the first step from the wall has no displacement thickness *)
Theorem C118_thin_refuted : exists p l m, curve p l /\ from_wall l /\ greatest l m /\ (forall x u, In (x, u) l -> (0 <= u)%num) /\ (exists d, bl_thickness p (qq 19 20) = Ok (Some d) /\ (0 < d)%num) /\
  displ_thickness p = Ok None /\ momentum_thickness p = Ok None.
Proof.
  pose (l := pairs_of [(0, 0); (1, 10); (2, 10)]%Z). exists (plain_prof l), l, (qz 10).
  assert (I : increasing (map fst l)) by incr. split; [now apply plain_curve, increasing_nondecreasing|]. split; [split; [exact I|pts]|]. split; [split; [exists (qz 2); cbn; tauto|pts]|]. split; [pts|].
  split; [destruct (ok_ex (bl_thickness (plain_prof l) (qq 19 20)) (fun o => omb o (qq 19 20))) as (o & E & H); [vmr|]; exists (qq 19 20); split; [rewrite E; f_equal; now apply omb_eq|now apply qltb_lt]|].
  split.
  - destruct (ok_ex (displ_thickness (plain_prof l)) isnan) as (o & E & H); [vmr|]. rewrite E. now destruct o.
  - destruct (ok_ex (momentum_thickness (plain_prof l)) isnan) as (o & E & H); [vmr|]. rewrite E. now destruct o.
Qed.
Print Assumptions C118_thin_refuted.

(** ** C119: thicknesses in other units *)
Theorem C119_units a c p p' :
  (0 < a)%num -> (0 < c)%num -> rescaled a c p p' ->
  (forall perc, result_times a (bl_thickness p perc) (bl_thickness p' perc)) /\
  result_times a (displ_thickness p) (displ_thickness p') /\ result_times a (momentum_thickness p) (momentum_thickness p') /\
  shape_factor p' = shape_factor p.
Proof. exact (rescale_lemma a c p p'). Qed.
Print Assumptions C119_units.

Example C119_example : rescaled (qz 1000) (qq 1 2) (plain_prof ex_bl) (plain_prof (map (fun t => (fst t * qz 1000, snd t * qq 1 2)%num) ex_bl)) /\
  bl_thickness (plain_prof (map (fun t => (fst t * qz 1000, snd t * qq 1 2)%num) ex_bl)) (qq 19 20) = Ok (Some (qz 4000)).
Proof.
  assert (C : curve (plain_prof (map (fun t => (fst t * qz 1000, snd t * qq 1 2)%num) ex_bl)) (map (fun t => (fst t * qz 1000, snd t * qq 1 2)%num) ex_bl)) by (apply plain_curve, increasing_nondecreasing; incr).
  split.
  - destruct ex_bl_curve as [O E]. destruct C as [O' E']. split; [exact O|]. split; [exact O'|]. rewrite E, E', !map_map. reflexivity.
  - destruct (ok_ex (bl_thickness (plain_prof (map (fun t => (fst t * qz 1000, snd t * qq 1 2)%num) ex_bl)) (qq 19 20)) (fun o => omb o (qz 4000))) as (o & E & H); [vmr|]. rewrite E. f_equal. now apply omb_eq.
Qed.

(** ** C120: thicknesses along a scalar field.  With the documented directions 1 and 2 the calls always raise *)
Theorem C120_refuted ci thick f :
  (ax (sg f) <> [] -> sweep ci thick f D1 = Err TypeErr) /\ (ay (sg f) <> [] -> sweep ci thick f D2 = Err TypeErr).
Proof. exact (sweep_raises ci thick f). Qed.
Print Assumptions C120_refuted.

Theorem C120_string_partial ci thick f p :
  field_ok f -> sweep ci thick f (DStr DY) = Ok p ->
  px p = ay (sg f) /\ pux p = ux (sg f) /\ puy p = uy (sg f) /\
  forall k, k < length (ay (sg f)) -> exists q v, is_line f DY k q /\ thick q = Ok v /\ nth k (yv p) None = v.
Proof. exact (sweep_lines ci thick f p). Qed.
Print Assumptions C120_string_partial.

Definition ex_layer : sfield := mksf (mkgrid (zs [0; 1; 2]%Z) (zs [10; 20]%Z) metre millimetre)
  (arr_of None 3 2 [[oz 0; oz 0]; [oz 10; oz 5]; [oz 20; oz 15]]) (arr_of false 3 2 []) metre.
Lemma ex_layer_ok : field_ok ex_layer.
Proof. split; [repeat split|]. split; [split; incr|]. split; discriminate. Qed.
(** the positions along y are given the unit of x, and the thicknesses, which are along x, the unit of y *)
Theorem C120_units_refuted : exists f p, field_ok f /\ sweep (fun _ _ _ _ _ => None) (fun q => bl_thickness q (qq 19 20)) f (DStr DY) = Ok p /\ px p = ay (sg f) /\ pux p <> uy (sg f) /\ puy p <> ux (sg f) /\
  nth 0 (yv p) None = Some (qq 19 10).
Proof.
  exists ex_layer.
  destruct (ok_ex (sweep (fun _ _ _ _ _ => None) (fun q => bl_thickness q (qq 19 20)) ex_layer (DStr DY)) (fun p => omb (nth 0 (yv p) None) (qq 19 10))) as (p & E & H); [vmr|].
  exists p. split; [exact ex_layer_ok|]. split; [exact E|]. destruct (sweep_lines _ _ _ _ ex_layer_ok E) as (X & U & V & _). split; [exact X|]. rewrite U, V. split; [discriminate|]. split; [discriminate|]. now apply omb_eq.
Qed.
Print Assumptions C120_units_refuted.

(** ** C121: profiles of a field at a position, at an index, over an interval *)
Theorem C121_on_line ci f d k :
  field_ok f -> k < length (pos_axis f d) ->
  (exists p, profile_linear ci f d (nths (pos_axis f d) k) = Ok p /\ is_line f d k p) /\
  (exists p, profile_linear_ind ci f d (Z.of_nat k) = Ok p /\ is_line f d k p).
Proof. exact (linear_node ci f d k). Qed.
Print Assumptions C121_on_line.

Theorem C121_between ci f d k v :
  field_ok f -> S k < length (pos_axis f d) -> (nths (pos_axis f d) k < v < nths (pos_axis f d) (S k))%num ->
  exists p, profile_linear ci f d v = Ok p /\ runs f d p (fun j y m => blends f d k v j y /\ m = isnan y).
Proof. exact (linear_between ci f d k v). Qed.
Print Assumptions C121_between.

Theorem C121_outside ci f d v :
  field_ok f -> ~ (nths (pos_axis f d) 0 <= v <= last (pos_axis f d) (qz 0))%num ->
  profile_linear ci f d v = Err ValueErr /\ profile_nearest f d v = Err ValueErr.
Proof. exact (bad_position ci f d v). Qed.
Print Assumptions C121_outside.

Theorem C121_index f d k :
  field_ok f -> k < length (pos_axis f d) -> exists p, profile_ind f d (Z.of_nat k) = Ok p /\ is_line f d k p.
Proof. exact (index_profile f d k). Qed.
Print Assumptions C121_index.

Theorem C121_bad_index ci f d i :
  ~ (0 <= i < Z.of_nat (length (pos_axis f d)))%Z -> profile_ind f d i = Err ValueErr /\ profile_linear_ind ci f d i = Err ValueErr.
Proof. exact (bad_index ci f d i). Qed.
Print Assumptions C121_bad_index.

Theorem C121_nearest f d v :
  field_ok f -> 2 <= length (pos_axis f d) -> (nths (pos_axis f d) 0 <= v <= last (pos_axis f d) (qz 0))%num ->
  exists k p, nearest_to (pos_axis f d) v k /\ profile_nearest f d v = Ok p /\ is_line f d k p.
Proof. exact (nearest_profile f d v). Qed.
Print Assumptions C121_nearest.

Theorem C121_interval f d a b :
  field_ok f ->
  exists p, profile_interval f d a b = Ok p /\ runs f d p (averages f d (fun k => (a <= nths (pos_axis f d) k <= b)%num)).
Proof. exact (interval_profile f d a b). Qed.
Print Assumptions C121_interval.

Theorem C121_all f d :
  field_ok f ->
  exists p, profile_all f d = Ok p /\ runs f d p (averages f d (fun _ => True)).
Proof. exact (all_profile f d). Qed.
Print Assumptions C121_all.

Lemma ex_field_ok : field_ok ex_sf.
Proof. split; [repeat split|]. split; [split; incr|]. split; discriminate. Qed.
Example C121_example : field_ok ex_sf /\ (nths (pos_axis ex_sf DX) 1 < qz 2 < nths (pos_axis ex_sf DX) 2)%num /\ 2 <= length (pos_axis ex_sf DX) /\
  (exists p, profile_linear (fun _ _ _ _ _ => None) ex_sf DX (qz 2) = Ok p /\ nth 0 (yv p) None = None /\ nth 1 (yv p) None = oz 5) /\
  (exists p, profile_interval ex_sf DX (qz (-5)) (qz 2) = Ok p /\ nth 0 (yv p) None = None /\ nth 1 (yv p) None = oz 3) /\
  (exists p, profile_nearest ex_sf DX (qz 2) = Ok p /\ nth 1 (yv p) None = oz 6).
Proof.
  split; [exact ex_field_ok|]. split; [split; now apply qltb_lt|]. split; [cbn; lia|]. split; [|split].
  - destruct (ok_ex (profile_linear (fun _ _ _ _ _ => None) ex_sf DX (qz 2)) (fun p => (isnan (nth 0 (yv p) None) && omb (nth 1 (yv p) None) (qz 5))%bool)) as (p & E & H); [vmr|].
    apply andb_true_iff in H. destruct H as [H1 H2]. exists p. split; [exact E|]. split; [now destruct (nth 0 (yv p) None)|now apply omb_eq].
  - destruct (ok_ex (profile_interval ex_sf DX (qz (-5)) (qz 2)) (fun p => (isnan (nth 0 (yv p) None) && omb (nth 1 (yv p) None) (qz 3))%bool)) as (p & E & H); [vmr|].
    apply andb_true_iff in H. destruct H as [H1 H2]. exists p. split; [exact E|]. split; [now destruct (nth 0 (yv p) None)|now apply omb_eq].
  - destruct (ok_ex (profile_nearest ex_sf DX (qz 2)) (fun p => omb (nth 1 (yv p) None) (qz 6))) as (p & E & H); [vmr|]. exists p. split; [exact E|now apply omb_eq].
Qed.

(** ** C122: intervals of indices, and the nearest line of a one-line field: the calls raise *)
Theorem C122_refuted f d i j :
  (- Z.of_nat (length (pos_axis f d)) < Z.min i j)%Z -> (Z.max i j < Z.of_nat (length (pos_axis f d)))%Z -> profile_interval_ind f d i j = Err TypeErr.
Proof. exact (interval_index_fails f d i j). Qed.
Print Assumptions C122_refuted.

Example C122_example : (- Z.of_nat (length (pos_axis ex_sf DX)) < Z.min 0 2)%Z /\ (Z.max 0 2 < Z.of_nat (length (pos_axis ex_sf DX)))%Z.
Proof. cbn. lia. Qed.
Theorem C122_single_refuted f d v :
  field_ok f -> pos_axis f d = [v] -> profile_nearest f d v = Err UnboundErr.
Proof. exact (nearest_single f d v). Qed.
Print Assumptions C122_single_refuted.

Example C122_single_example : let f := sf_of [7]%Z [10; 20]%Z [[oz 1; oz 2]] [[false; false]] in field_ok f /\ pos_axis f DX = [qz 7].
Proof. cbv zeta. split; [|reflexivity]. split; [repeat split|]. split; [split; incr|]. split; discriminate. Qed.
