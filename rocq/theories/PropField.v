(** * PropField: the properties C01 to C12 (grids, lookup, crop, rotation, units, origin, scale, extension).
    Statements only; the proofs are in FieldProofs, RotateProofs, FieldProofs2, FieldProofs3.
    The vocabulary is in FieldSpec. *)
From Verif Require Import Num Res ListLib Arr FieldModel ScalarFieldModel VectorFieldModel FieldSpec FieldProofs RotateProofs FieldProofs2 ScalarProofs FieldProofs3 Concrete.

(** ** The hypotheses used below hold of a concrete 3 x 2 field with a masked cell. *)
Example ex_sf_ok : sf_wf ex_sf /\ grid_sorted (sg ex_sf) /\ 2 <= length (ax (sg ex_sf)) /\ 2 <= length (ay (sg ex_sf)).
Proof. repeat split; try (simpl; lia); incr. Qed.
Example ex_sf_clean : sf_clean ex_sf.
Proof.
  intros x y v m (i & j & H1 & H2 & <- & <-). apply nth_error_Some_lt in H1, H2. simpl in H1, H2.
  destruct i as [|[|[|i]]]; try lia; destruct j as [|[|j]]; try lia; vm_compute; split; intro; congruence.
Qed.
Example ex_vf_ok : vf_wf ex_vf /\ grid_sorted (vg ex_vf) /\ 2 <= length (ax (vg ex_vf)) /\ 2 <= length (ay (vg ex_vf)) /\ vf_nan_ok ex_vf.
Proof.
  repeat split; try (simpl; lia); try incr; simpl in *; destruct i as [|[|[|i]]]; try lia; destruct j as [|[|j]]; try lia; vm_compute; congruence.
Qed.
Example ex_units : good_unit metre /\ good_unit millimetre /\ dim metre = dim millimetre /\ dim metre <> dim second.
Proof. repeat split; try (vm_compute; reflexivity). discriminate. Qed.

(** ** C01 *)
Theorem C01_bounds g d v :
  grid_sorted g -> d = 1%Z \/ d = 2%Z -> axis_of g d <> [] ->
  let axe := axis_of g d in
  (get_indice_on_axe g d v KBounds = Err ValueErr <-> (v < nths axe 0)%num \/ (last axe (qz 0) < v)%num) /\
  ((nths axe 0 <= v)%num -> (v <= last axe (qz 0))%num ->
   exists i j, get_indice_on_axe g d v KBounds = Ok (IPair i j) /\ i < length axe /\ j < length axe /\
     (nths axe i <= v)%num /\ (v <= nths axe j)%num /\
     (i = j <-> In v axe) /\ (i <> j -> j = i + 1)).
Proof. exact (lookup_bounds g d v). Qed.
Print Assumptions C01_bounds.

Theorem C01_bad_direction g d v k :
  d <> 1%Z -> d <> 2%Z -> get_indice_on_axe g d v k = Err ValueErr.
Proof. exact (lookup_baddir g d v k). Qed.
Print Assumptions C01_bad_direction.

Example C01_example : get_indice_on_axe (sg ex_sf) 1 (qz 2) KBounds = Ok (IPair 1 2) /\
  get_indice_on_axe (sg ex_sf) 2 (qz 20) KBounds = Ok (IPair 1 1) /\ get_indice_on_axe (sg ex_sf) 1 (qz 4) KBounds = Err ValueErr.
Proof. vm_compute. auto. Qed.
(** ** C02 *)
Theorem C02_nearest g d v :
  grid_sorted g -> d = 1%Z \/ d = 2%Z -> axis_of g d <> [] ->
  let axe := axis_of g d in
  (nths axe 0 <= v)%num -> (v <= last axe (qz 0))%num ->
  exists i, get_indice_on_axe g d v KNearest = Ok (IInd i) /\ i < length axe /\
    (forall k, k < length axe -> (qabs (nths axe i - v) <= qabs (nths axe k - v))%num) /\
    (forall k, k < length axe -> qabs (nths axe k - v)%num = qabs (nths axe i - v)%num -> k <= i).
Proof. exact (lookup_nearest g d v). Qed.
Print Assumptions C02_nearest.

Example C02_example : get_indice_on_axe (sg ex_sf) 1 (qz 2) KNearest = Ok (IInd 2).
Proof. reflexivity. Qed.
(** ** C03 *)
Theorem C03_decimal g d v :
  grid_sorted g -> d = 1%Z \/ d = 2%Z -> axis_of g d <> [] ->
  let axe := axis_of g d in
  (nths axe 0 <= v)%num -> (v <= last axe (qz 0))%num ->
  (exists i, get_indice_on_axe g d v KDecimal = Ok (IInd i) /\ i < length axe /\ nths axe i = v) \/
  (exists i r, get_indice_on_axe g d v KDecimal = Ok (IDec r) /\ S i < length axe /\
     (qn i < r)%num /\ (r < qn (S i))%num /\
     (nths axe i + (r - qn i) * (nths axe (S i) - nths axe i))%num = v).
Proof. exact (lookup_decimal g d v). Qed.
Print Assumptions C03_decimal.

Example C03_example : exists r, get_indice_on_axe (sg ex_sf) 1 (qz 2) KDecimal = Ok (IDec r) /\ r = qq 3 2.
Proof. eexists. split; [reflexivity|]. qc. Qed.
(** ** C04 *)
Theorem C04_scalar f ivx ivy :
  sf_wf f -> grid_sorted (sg f) -> ax (sg f) <> [] -> ay (sg f) <> [] ->
  ((~ iv_ok (ax (sg f)) ivx \/ ~ iv_ok (ay (sg f)) ivy) <-> sf_crop f ivx ivy = Err ValueErr) /\
  (iv_ok (ax (sg f)) ivx -> iv_ok (ay (sg f)) ivy ->
   exists f', sf_crop f ivx ivy = Ok f' /\
     (forall x y v m, sf_shows f' x y v m <-> sf_shows f x y v m /\ in_iv ivx x /\ in_iv ivy y) /\
     (forall x, In x (ax (sg f')) <-> In x (ax (sg f)) /\ in_iv ivx x) /\
     (forall y, In y (ay (sg f')) <-> In y (ay (sg f)) /\ in_iv ivy y) /\
     grid_sorted (sg f') /\ sf_wf f' /\
     ux (sg f') = ux (sg f) /\ uy (sg f') = uy (sg f) /\ uv f' = uv f).
Proof. exact (sf_crop_lemma f ivx ivy). Qed.
Print Assumptions C04_scalar.

Theorem C04_vector f ivx ivy :
  vf_wf f -> grid_sorted (vg f) -> ax (vg f) <> [] -> ay (vg f) <> [] ->
  iv_ok (ax (vg f)) ivx -> iv_ok (ay (vg f)) ivy ->
  exists f', vf_crop f ivx ivy = Ok f' /\
     (forall x y vx vy m, vf_shows f' x y vx vy m <-> vf_shows f x y vx vy m /\ in_iv ivx x /\ in_iv ivy y) /\
     grid_sorted (vg f') /\ vf_wf f' /\
     ux (vg f') = ux (vg f) /\ uy (vg f') = uy (vg f) /\ vuv f' = vuv f.
Proof. exact (vf_crop_lemma f ivx ivy). Qed.
Print Assumptions C04_vector.

Theorem C04_vector_errors f ivx ivy :
  vf_wf f -> grid_sorted (vg f) -> ax (vg f) <> [] -> ay (vg f) <> [] ->
  ((~ iv_ok (ax (vg f)) ivx \/ ~ iv_ok (ay (vg f)) ivy) <-> vf_crop f ivx ivy = Err ValueErr).
Proof. exact (vf_crop_errors f ivx ivy). Qed.
Print Assumptions C04_vector_errors.

Example C04_example : iv_ok (ax (sg ex_sf)) (Some (qq 1 2, qz 2)) /\ ~ iv_ok (ax (sg ex_sf)) (Some (qz 4, qz 5)) /\
  exists f', sf_crop ex_sf (Some (qq 1 2, qz 2)) None = Ok f' /\ map (fun x => qeqb x (qz 1)) (ax (sg f')) = [true].
Proof.
  split; [repeat split; vm_compute; discriminate|]. split.
  - intros (_ & _ & H). vm_compute in H. congruence.
  - eexists. split; reflexivity.
Qed.
(** ** C05: the full property fails for the index pair (0, 0), which the guard of line 537 rejects. *)
Theorem C05_scalar_partial f ivx ivy x0 x1 y0 y1 :
  sf_wf f -> designates (length (ax (sg f))) ivx x0 x1 -> designates (length (ay (sg f))) ivy y0 y1 ->
  (ivx = None \/ 0 < x1) -> (ivy = None \/ 0 < y1) ->
  exists f', sf_crop_ind f ivx ivy = Ok f' /\ sf_wf f' /\
    length (ax (sg f')) = x1 - x0 + 1 /\ length (ay (sg f')) = y1 - y0 + 1 /\
    (forall i, i <= x1 - x0 -> nth_error (ax (sg f')) i = nth_error (ax (sg f)) (x0 + i)) /\
    (forall j, j <= y1 - y0 -> nth_error (ay (sg f')) j = nth_error (ay (sg f)) (y0 + j)) /\
    (forall i j, i <= x1 - x0 -> j <= y1 - y0 ->
       at_ (values f') i j = at_ (values f) (x0 + i) (y0 + j) /\ at_ (msk f') i j = at_ (msk f) (x0 + i) (y0 + j)) /\
    ux (sg f') = ux (sg f) /\ uy (sg f') = uy (sg f) /\ uv f' = uv f.
Proof. exact (sf_crop_ind_lemma f ivx ivy x0 x1 y0 y1). Qed.
Print Assumptions C05_scalar_partial.

Theorem C05_vector_partial f ivx ivy x0 x1 y0 y1 :
  vf_wf f -> designates (length (ax (vg f))) ivx x0 x1 -> designates (length (ay (vg f))) ivy y0 y1 ->
  (ivx = None \/ 0 < x1) -> (ivy = None \/ 0 < y1) ->
  exists f', vf_crop_ind f ivx ivy = Ok f' /\ vf_wf f' /\
    length (ax (vg f')) = x1 - x0 + 1 /\ length (ay (vg f')) = y1 - y0 + 1 /\
    (forall i, i <= x1 - x0 -> nth_error (ax (vg f')) i = nth_error (ax (vg f)) (x0 + i)) /\
    (forall j, j <= y1 - y0 -> nth_error (ay (vg f')) j = nth_error (ay (vg f)) (y0 + j)) /\
    (forall i j, i <= x1 - x0 -> j <= y1 - y0 ->
       at_ (cx f') i j = at_ (cx f) (x0 + i) (y0 + j) /\ at_ (cy f') i j = at_ (cy f) (x0 + i) (y0 + j) /\
       at_ (vmsk f') i j = at_ (vmsk f) (x0 + i) (y0 + j)) /\
    ux (vg f') = ux (vg f) /\ uy (vg f') = uy (vg f) /\ vuv f' = vuv f.
Proof. exact (vf_crop_ind_lemma f ivx ivy x0 x1 y0 y1). Qed.
Print Assumptions C05_vector_partial.

Theorem C05_first_column_refuted : exists f lo hi,
  sf_wf f /\ designates (length (ax (sg f))) (Some (lo, hi)) 0 0 /\ sf_crop_ind f (Some (lo, hi)) None = Err ValueErr.
Proof. exists ex_sf, 0%Z, 0%Z. repeat split; simpl; lia. Qed.
Print Assumptions C05_first_column_refuted.
Example C05_example : designates (length (ax (sg ex_sf))) (Some (1, 2)%Z) 1 2 /\ designates (length (ay (sg ex_sf))) None 0 1.
Proof. repeat split; simpl; lia. Qed.
(** ** C06 *)
Theorem C06_scalar f k :
  sf_wf f -> grid_sorted (sg f) -> 2 <= length (ax (sg f)) -> 2 <= length (ay (sg f)) ->
  exists f', sf_rotate f (90 * k) = Ok f' /\ sf_wf f' /\ grid_sorted (sg f') /\
    (forall x y v m, sf_shows f' (fst (turns k (x, y))) (snd (turns k (x, y))) v m <-> sf_shows f x y v m) /\
    (forall x' y' v m, sf_shows f' x' y' v m -> exists x y, turns k (x, y) = (x', y')) /\
    ux (sg f') = (if Z.even k then ux (sg f) else uy (sg f)) /\
    uy (sg f') = (if Z.even k then uy (sg f) else ux (sg f)) /\
    uv f' = uv f.
Proof. exact (sf_rotate_k f k). Qed.
Print Assumptions C06_scalar.

Theorem C06_vector f k :
  vf_wf f -> vf_nan_ok f -> grid_sorted (vg f) -> 2 <= length (ax (vg f)) -> 2 <= length (ay (vg f)) ->
  exists f', vf_rotate f (90 * k) = Ok f' /\ vf_wf f' /\ grid_sorted (vg f') /\
    (forall x y vx vy m,
       vf_shows f' (fst (turns k (x, y))) (snd (turns k (x, y))) (fst (oturns k (vx, vy))) (snd (oturns k (vx, vy))) m
       <-> vf_shows f x y vx vy m) /\
    (forall x' y' vx' vy' m, vf_shows f' x' y' vx' vy' m ->
       exists x y vx vy, turns k (x, y) = (x', y') /\ oturns k (vx, vy) = (vx', vy')) /\
    vuv f' = vuv f.
Proof. exact (vf_rotate_k f k). Qed.
Print Assumptions C06_vector.

Theorem C06_bad_angle_scalar f angle :
  (angle mod 90 <> 0)%Z -> sf_rotate f angle = Err ValueErr.
Proof. exact (sf_rotate_err f angle). Qed.
Print Assumptions C06_bad_angle_scalar.

Theorem C06_bad_angle_vector f angle :
  (angle mod 90 <> 0)%Z -> vf_rotate f angle = Err ValueErr.
Proof. exact (vf_rotate_err f angle). Qed.
Print Assumptions C06_bad_angle_vector.

(** the quantifier excludes single-line fields: there the axis is not turned *)
Theorem C06_single_line_refuted : exists f f' x y v m,
  sf_wf f /\ grid_sorted (sg f) /\ sf_rotate f 180 = Ok f' /\ sf_shows f x y v m /\
  ~ sf_shows f' (fst (turns 2 (x, y))) (snd (turns 2 (x, y))) v m.
Proof.
  exists (sf_of [5]%Z [10; 20]%Z [[oz 1; oz 2]] [[false; false]]).
  eexists. exists (qz 5), (qz 10), (oz 1), false.
  split; [repeat split|]. split; [split; incr|]. split; [reflexivity|]. split.
  - exists 0, 0. repeat split; reflexivity.
  - intros (i & j & H1 & _). vm_compute in H1. destruct i as [|i]; [discriminate H1|destruct i; discriminate H1].
Qed.
Print Assumptions C06_single_line_refuted.
Example C06_example : exists f', sf_rotate ex_sf (-270) = Ok f' /\ map (fun x => qltb x 0%num) (ax (sg f')) = [true; true].
Proof. eexists. split; reflexivity. Qed.
(** ** C07 *)
Theorem C07_scalar f a b :
  sf_wf f -> grid_sorted (sg f) -> 2 <= length (ax (sg f)) -> 2 <= length (ay (sg f)) ->
  (a mod 90 = 0)%Z -> (b mod 90 = 0)%Z ->
  exists f1 f2 f3, sf_rotate f a = Ok f1 /\ sf_rotate f1 b = Ok f2 /\ sf_rotate f (a + b) = Ok f3 /\ sf_same f2 f3.
Proof. exact (sf_rotate_compose f a b). Qed.
Print Assumptions C07_scalar.

Theorem C07_vector f a b :
  vf_wf f -> vf_nan_ok f -> grid_sorted (vg f) -> 2 <= length (ax (vg f)) -> 2 <= length (ay (vg f)) ->
  (a mod 90 = 0)%Z -> (b mod 90 = 0)%Z ->
  exists f1 f2 f3, vf_rotate f a = Ok f1 /\ vf_rotate f1 b = Ok f2 /\ vf_rotate f (a + b) = Ok f3 /\ vf_same f2 f3.
Proof. exact (vf_rotate_compose f a b). Qed.
Print Assumptions C07_vector.

Theorem C07_full_turn_scalar f :
  sf_wf f -> grid_sorted (sg f) -> 2 <= length (ax (sg f)) -> 2 <= length (ay (sg f)) ->
  forall k, exists f', sf_rotate f (360 * k) = Ok f' /\ sf_same f' f.
Proof. exact (sf_rotate_360 f). Qed.
Print Assumptions C07_full_turn_scalar.

Theorem C07_full_turn_vector f :
  vf_wf f -> vf_nan_ok f -> grid_sorted (vg f) -> 2 <= length (ax (vg f)) -> 2 <= length (ay (vg f)) ->
  forall k, exists f', vf_rotate f (360 * k) = Ok f' /\ vf_same f' f.
Proof. exact (vf_rotate_360 f). Qed.
Print Assumptions C07_full_turn_vector.

Example C07_example : (450 mod 90 = 0)%Z /\ (-90 mod 90 = 0)%Z /\ (100 mod 90 <> 0)%Z.
Proof. repeat split. discriminate. Qed.
(** ** C08: scalar and vector fields (profiles and points: PropProfile, PropPoints) *)
Theorem C08_scalar_x f new :
  good_unit new ->
  (dim (ux (sg f)) = dim new -> exists f', sf_change_unit f AxX new = Ok f' /\
     ux (sg f') = new /\ uy (sg f') = uy (sg f) /\ uv f' = uv f /\
     forall x' y v m, sf_shows f' x' y v m <->
        exists x, (x' * sc new)%num = (x * sc (ux (sg f)))%num /\ sf_shows f x y v m) /\
  (dim (ux (sg f)) <> dim new -> sf_change_unit f AxX new = Err UnitErr).
Proof. exact (sf_change_unit_x f new). Qed.
Print Assumptions C08_scalar_x.

Theorem C08_scalar_y f new :
  good_unit new ->
  (dim (uy (sg f)) = dim new -> exists f', sf_change_unit f AxY new = Ok f' /\
     ux (sg f') = ux (sg f) /\ uy (sg f') = new /\ uv f' = uv f /\
     forall x y' v m, sf_shows f' x y' v m <->
        exists y, (y' * sc new)%num = (y * sc (uy (sg f)))%num /\ sf_shows f x y v m) /\
  (dim (uy (sg f)) <> dim new -> sf_change_unit f AxY new = Err UnitErr).
Proof. exact (sf_change_unit_y f new). Qed.
Print Assumptions C08_scalar_y.

Theorem C08_scalar_values f new :
  good_unit new -> sf_clean f ->
  (dim (uv f) = dim new -> exists f', sf_change_unit f AxValues new = Ok f' /\
     sg f' = sg f /\ uv f' = new /\
     forall x y v' m, sf_shows f' x y v' m <->
        exists v, oeq_phys v' new v (uv f) /\ sf_shows f x y v m) /\
  (dim (uv f) <> dim new -> sf_change_unit f AxValues new = Err UnitErr).
Proof. exact (sf_change_unit_v f new). Qed.
Print Assumptions C08_scalar_values.

Theorem C08_vector_axes f new (a : axname) :
  a = AxX \/ a = AxY -> good_unit new ->
  let old := match a with AxX => ux (vg f) | _ => uy (vg f) end in
  (dim old = dim new -> exists f', vf_change_unit f a new = Ok f' /\ vuv f' = vuv f /\
     ux (vg f') = (match a with AxX => new | _ => ux (vg f) end) /\
     uy (vg f') = (match a with AxX => uy (vg f) | _ => new end) /\
     forall x' y' vx vy m, vf_shows f' x' y' vx vy m <->
        exists x y, vf_shows f x y vx vy m /\
          match a with
          | AxX => (x' * sc new)%num = (x * sc old)%num /\ y' = y
          | _ => x' = x /\ (y' * sc new)%num = (y * sc old)%num
          end) /\
  (dim old <> dim new -> vf_change_unit f a new = Err UnitErr).
Proof. exact (vf_change_unit_axis f new a). Qed.
Print Assumptions C08_vector_axes.

Theorem C08_vector_values f new :
  good_unit new ->
  (dim (vuv f) = dim new -> exists f', vf_change_unit f AxValues new = Ok f' /\
     vg f' = vg f /\ vuv f' = new /\
     forall x y vx' vy' m, vf_shows f' x y vx' vy' m <->
        exists vx vy, oeq_phys vx' new vx (vuv f) /\ oeq_phys vy' new vy (vuv f) /\ vf_shows f x y vx vy m) /\
  (dim (vuv f) <> dim new -> vf_change_unit f AxValues new = Err UnitErr).
Proof. exact (vf_change_unit_v f new). Qed.
Print Assumptions C08_vector_values.

Theorem C08_scalar_x_back f new f1 :
  good_unit new -> good_unit (ux (sg f)) ->
  sf_change_unit f AxX new = Ok f1 -> sf_change_unit f1 AxX (ux (sg f)) = Ok f.
Proof. exact (sf_change_unit_back_x f new f1). Qed.
Print Assumptions C08_scalar_x_back.

Theorem C08_scalar_y_back f new f1 :
  good_unit new -> good_unit (uy (sg f)) ->
  sf_change_unit f AxY new = Ok f1 -> sf_change_unit f1 AxY (uy (sg f)) = Ok f.
Proof. exact (sf_change_unit_back_y f new f1). Qed.
Print Assumptions C08_scalar_y_back.

Theorem C08_scalar_values_back f new f1 :
  good_unit new -> good_unit (uv f) -> sf_clean f -> sf_wf f ->
  sf_change_unit f AxValues new = Ok f1 -> exists f2, sf_change_unit f1 AxValues (uv f) = Ok f2 /\ sf_same f2 f.
Proof. exact (sf_change_unit_back_v f new f1). Qed.
Print Assumptions C08_scalar_values_back.

Theorem C08_vector_values_back f new f1 :
  good_unit new -> good_unit (vuv f) ->
  vf_change_unit f AxValues new = Ok f1 -> exists f2, vf_change_unit f1 AxValues (vuv f) = Ok f2 /\ vf_same f2 f.
Proof. exact (vf_change_unit_back_v f new f1). Qed.
Print Assumptions C08_vector_values_back.

Example C08_example : exists f', sf_change_unit ex_sf AxX millimetre = Ok f' /\ nths (ax (sg f')) 2 = qz 3000 /\
  sf_change_unit ex_sf AxX second = Err UnitErr.
Proof. eexists. split; [reflexivity|]. split; [qc|reflexivity]. Qed.
(** ** C09 *)
Theorem C09_translation f ox oy :
  let f' := sf_set_origin f ox oy in
  let sx := match ox with Some a => a | None => 0%num end in
  let sy := match oy with Some a => a | None => 0%num end in
  (forall x y v m, sf_shows f' (x - sx)%num (y - sy)%num v m <-> sf_shows f x y v m) /\
  ux (sg f') = ux (sg f) /\ uy (sg f') = uy (sg f) /\ uv f' = uv f /\ (sf_wf f -> sf_wf f').
Proof. exact (sf_set_origin_lemma f ox oy). Qed.
Print Assumptions C09_translation.

Theorem C09_back f a b :
  sf_set_origin (sf_set_origin f (Some a) (Some b)) (Some (- a)%num) (Some (- b)%num) = f.
Proof. exact (sf_set_origin_back f a b). Qed.
Print Assumptions C09_back.

Example C09_example : nths (ax (sg (sf_set_origin ex_sf (Some (qz 1)) None))) 2 = qz 2.
Proof. qc. Qed.
(** ** C10: proved for scalar fields; for vector fields the mask does not follow when a factor is negative. *)
Theorem C10_scalar f sx sy sv :
  sf_wf f -> sf_clean f -> grid_sorted (sg f) -> nonzero sx -> nonzero sy ->
  let f' := sf_scale f sx sy sv in
  sf_wf f' /\ grid_sorted (sg f') /\
  forall x' y' v' m, sf_shows f' x' y' v' m <->
    exists x y v, x' = (x * sfact sx)%num /\ y' = (y * sfact sy)%num /\ v' = oscale (sfact sv) v /\ sf_shows f x y v m.
Proof. exact (sf_scale_lemma f sx sy sv). Qed.
Print Assumptions C10_scalar.

Theorem C10_vector_partial f sx sy sv :
  vf_wf f -> grid_sorted (vg f) -> nonzero sx -> nonzero sy ->
  let f' := vf_scale f sx sy sv in
  vf_wf f' /\ grid_sorted (vg f') /\
  (forall x' y' vx' vy', (exists m, vf_shows f' x' y' vx' vy' m) <->
    exists x y vx vy, x' = (x * sfact sx)%num /\ y' = (y * sfact sy)%num /\
       vx' = osign (sfact sx) (oscale (sfact sv) vx) /\ vy' = osign (sfact sy) (oscale (sfact sv) vy) /\
       exists m, vf_shows f x y vx vy m) /\
  ((0 < sfact sx)%num -> (0 < sfact sy)%num ->
   forall x' y' vx' vy' m, vf_shows f' x' y' vx' vy' m <->
     exists x y vx vy, x' = (x * sfact sx)%num /\ y' = (y * sfact sy)%num /\
       vx' = oscale (sfact sv) vx /\ vy' = oscale (sfact sv) vy /\ vf_shows f x y vx vy m).
Proof. exact (vf_scale_lemma f sx sy sv). Qed.
Print Assumptions C10_vector_partial.

Theorem C10_vector_mask_refuted : exists f x y vx vy vx' vy',
  vf_wf f /\ grid_sorted (vg f) /\
  vf_shows f x y vx vy true /\ vf_shows (vf_scale f (SNum (qz (-1))) SNone SNone) (x * qz (-1))%num y vx' vy' false.
Proof.
  exists (vf_of [0; 1]%Z [0; 1]%Z [[None; oz 1]; [oz 1; oz 1]] [[None; oz 1]; [oz 1; oz 1]] [[true; false]; [false; false]]).
  exists (qz 0), (qz 0), None, None, None, None. split; [repeat split|]. split; [split; incr|].
  split; [exists 0, 0|exists 1, 0]; repeat split; reflexivity.
Qed.
Print Assumptions C10_vector_mask_refuted.
Example C10_example : nonzero (SNum (qz (-2))) /\ nonzero SNone /\ nonzero (SUnum (qz 3) metre).
Proof. repeat split; vm_compute; discriminate. Qed.
(** ** C11 (inplace=True; the default inplace=False path always raises) *)
Theorem C11_scalar f nl nr nu nd value :
  sf_wf f -> sf_clean f -> grid_sorted (sg f) -> 2 <= length (ax (sg f)) -> 2 <= length (ay (sg f)) ->
  exists f', sf_extend f nl nr nu nd value true = Ok f' /\ sf_wf f' /\ grid_sorted (sg f') /\
    axis_extends (ax (sg f)) (ax (sg f')) nl nr /\ axis_extends (ay (sg f)) (ay (sg f')) nd nu /\
    (forall x y v m, In x (ax (sg f)) -> In y (ay (sg f)) -> (sf_shows f' x y v m <-> sf_shows f x y v m)) /\
    (forall x y v m, sf_shows f' x y v m -> ~ (In x (ax (sg f)) /\ In y (ay (sg f))) ->
        match value with None => m = true /\ v = None | Some c => m = false /\ v = Some c end) /\
    ux (sg f') = ux (sg f) /\ uy (sg f') = uy (sg f) /\ uv f' = uv f.
Proof. exact (sf_extend_full f nl nr nu nd value). Qed.
Print Assumptions C11_scalar.

Theorem C11_vector f nl nr nu nd :
  vf_wf f -> grid_sorted (vg f) -> 2 <= length (ax (vg f)) -> 2 <= length (ay (vg f)) ->
  exists f', vf_extend f nl nr nu nd = Ok f' /\ vf_wf f' /\ grid_sorted (vg f') /\
    axis_extends (ax (vg f)) (ax (vg f')) nl nr /\ axis_extends (ay (vg f)) (ay (vg f')) nd nu /\
    (forall x y vx vy m, In x (ax (vg f)) -> In y (ay (vg f)) -> (vf_shows f' x y vx vy m <-> vf_shows f x y vx vy m)) /\
    (forall x y vx vy m, vf_shows f' x y vx vy m -> ~ (In x (ax (vg f)) /\ In y (ay (vg f))) -> m = true) /\
    ux (vg f') = ux (vg f) /\ uy (vg f') = uy (vg f) /\ vuv f' = vuv f.
Proof. exact (vf_extend_full f nl nr nu nd). Qed.
Print Assumptions C11_vector.

Theorem C11_copy_raises f nl nr nu nd value :
  grid_sorted (sg f) -> 2 <= length (ax (sg f)) -> 2 <= length (ay (sg f)) ->
  sf_extend f nl nr nu nd value false = Err NameErr.
Proof. exact (sf_extend_copy f nl nr nu nd value). Qed.
Print Assumptions C11_copy_raises.

Example C11_example : exists f', sf_extend ex_sf 1 2 0 1 None true = Ok f' /\
  map (fun x => qeqb x (qz 7)) (ax (sg f')) = [false; false; false; false; false; true].
Proof. eexists. split; reflexivity. Qed.
(** ** C12 *)
Theorem C12_disc cx cy r :
  ((r <= 0)%num -> points_around_ind cx cy r = Err ValueErr) /\
  ((0 < r)%num -> exists l, points_around_ind cx cy r = Ok l /\ NoDup l /\
     forall i j, In (i, j) l <-> ((qz i - cx) * (qz i - cx) + (qz j - cy) * (qz j - cy) <= r * r)%num).
Proof. exact (points_around_lemma cx cy r). Qed.
Print Assumptions C12_disc.

Example C12_example : points_around_ind 0 0 1 = Ok [(0, -1); (-1, 0); (0, 0); (1, 0); (0, 1)]%Z.
Proof. reflexivity. Qed.
