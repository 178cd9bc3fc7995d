(** * TemporalModel: TemporalFields (temporalfields.py, fields.py), TemporalScalarFields, TemporalVectorFields.
    The container is the same for scalar and vector frames: it is modelled once, for frames of type [F] whose
    operations are given by a record [fops]; [sf_ops] and [vf_ops] are the two instances. *)
From Verif Require Import Num Res ListLib SortLib Arr FieldModel ScalarFieldModel VectorFieldModel ProfileModel PointsModel.

(** ** Vector field arithmetic used on frames: vectorfield.py __mul__ by a number (231-236), __truediv__ by a
    number (190-195) and by an array (168-175).  The mask setter writes NaN in the masked cells. *)
Definition vf_mul_num (f : vfield) (c : num) : vfield :=
  mkvf (vg f) (nanify (vmsk f) (amap (oscale c) (cx f))) (nanify (vmsk f) (amap (oscale c) (cy f))) (vmsk f) (vuv f).
Definition vf_div_num (f : vfield) (c : num) : vfield :=
  mkvf (vg f) (nanify (vmsk f) (amap (fun a => odiv a (Some c)) (cx f)))
       (nanify (vmsk f) (amap (fun a => odiv a (Some c)) (cy f))) (vmsk f) (vuv f).
Definition vf_div_arr (f : vfield) (o : arr onum) : res vfield :=
  raise ValueErr when (negb (shape_is o (vg f))) ;;
  let* f1 := vf_set_comp_x f (amap2 odiv (cx f) o) in
  let* f2 := vf_set_comp_y f1 (amap2 odiv (cy f) o) in
  vf_set_mask f2 (amap2 (fun b z => orb b (match z with Some q => qeqb q 0%num | None => false end)) (vmsk f) o).
(** __add__ (58-75).  On different axes (76-150) the addition is not modelled here: the marker [OutOfFuel]. *)
Definition vf_plus (f h : vfield) : res vfield :=
  if (list_eqb (ax (vg f)) (ax (vg h)) && list_eqb (ay (vg f)) (ay (vg h)))%bool then vf_add_same f h else Err OutOfFuel.

(** ** fill(kind='value', inplace=True): scalarfield.py 1816-1879; the setter of values then mask = False *)
Definition sf_fill_value (f : sfield) (c : num) : res sfield :=
  let v := mkarr (d0 (raw f)) (d1 (raw f)) (fun i j => if at_ (msk f) i j then Some c else at_ (raw f) i j) in
  let* f1 := set_values f v in set_mask_bool f1 false.
(** fill(kind='value', inplace=False) imports the filled values in a new field (1875-1879) *)
Definition sf_fill_value_new (f : sfield) (c : num) : res sfield :=
  let v := mkarr (d0 (raw f)) (d1 (raw f)) (fun i j => if at_ (msk f) i j then Some c else at_ (raw f) i j) in
  sf_import (ax (sg f)) (ay (sg f)) v (Some (afull (d0 v) (d1 v) false)) (ux (sg f)) (uy (sg f)) (uv f).
(** vectorfield.py fill (941-959): each component as a scalar field (comp_x_as_sf 308-314), filled apart *)
Definition comp_sf (f : vfield) (c : arr onum) : res sfield :=
  sf_import (ax (vg f)) (ay (vg f)) c (Some (vmsk f)) (ux (vg f)) (uy (vg f)) (vuv f).
Definition vf_fill_value (f : vfield) (c d : num) : res vfield :=
  let* sx := comp_sf f (cx f) in
  let* sy := comp_sf f (cy f) in
  let* nx := sf_fill_value_new sx c in
  let* ny := sf_fill_value_new sy d in
  let* f1 := vf_set_comp_x f (values nx) in
  let* f2 := vf_set_comp_y f1 (values ny) in
  Ok (mkvf (vg f2) (cx f2) (cy f2) (afull (length (ax (vg f))) (length (ay (vg f))) false) (vuv f2)).

(** ** The operations of a frame the container relies on *)
Record fops (F : Type) : Type := mkops {
  o_grid : F -> grid;                                    (* axes and units of the frame *)
  o_setgrid : F -> grid -> F;                            (* the setters of the axes and of their units *)
  o_mask : F -> arr bool;
  o_add : F -> F -> res F;
  o_neg : F -> F;
  o_muln : F -> num -> F;
  o_divn : F -> num -> F;
  o_mul : F -> F -> res F;
  o_div : F -> F -> res F;
  o_fill0 : F -> res F;                                  (* fill(kind='value', value=0, inplace=True) *)
  o_setmask : F -> arr bool -> res F;
  o_diva : F -> arr onum -> res F;
  o_crop : F -> option (num * num) -> option (num * num) -> res F;
  o_cropi : F -> option (Z * Z) -> option (Z * Z) -> res F;
  o_rotate : F -> Z -> res F;
  o_extend : F -> nat -> nat -> nat -> nat -> res F;
  o_scalev : F -> sarg -> F;
  o_unit : F -> axname -> unit_t -> res F }.
Arguments o_grid {F} _ _. Arguments o_setgrid {F} _ _ _. Arguments o_mask {F} _ _. Arguments o_add {F} _ _ _.
Arguments o_neg {F} _ _. Arguments o_muln {F} _ _ _. Arguments o_divn {F} _ _ _. Arguments o_mul {F} _ _ _.
Arguments o_div {F} _ _ _. Arguments o_fill0 {F} _ _. Arguments o_setmask {F} _ _ _. Arguments o_diva {F} _ _ _.
Arguments o_crop {F} _ _ _ _. Arguments o_cropi {F} _ _ _ _. Arguments o_rotate {F} _ _ _.
Arguments o_extend {F} _ _ _ _ _ _. Arguments o_scalev {F} _ _ _. Arguments o_unit {F} _ _ _ _.
(** scalar frames *)
Definition sf_ops : fops sfield :=
  mkops sfield sg (fun f g => mksf g (raw f) (msk f) (uv f)) msk sf_add sf_neg sf_mul_num sf_div_num sf_mul sf_div
        (fun f => sf_fill_value f 0%num) set_mask sf_div_arr sf_crop sf_crop_ind sf_rotate
        (fun f l r u d => sf_extend f l r u d None true) (fun f v => sf_scale f SNone SNone v) sf_change_unit.
(** vector frames: a product or quotient of two vector fields raises TypeError (vectorfield.py 196-198, 244-246) *)
Definition vf_ops : fops vfield :=
  mkops vfield vg (fun f g => mkvf g (cx f) (cy f) (vmsk f) (vuv f)) vmsk vf_plus vf_neg vf_mul_num vf_div_num
        (fun _ _ => Err TypeErr) (fun _ _ => Err TypeErr)
        (fun f => vf_fill_value f 0%num 0%num) vf_set_mask vf_div_arr vf_crop vf_crop_ind vf_rotate vf_extend
        (fun f v => vf_scale f SNone SNone v) vf_change_unit.

(** ** The container (temporalfields.py:45-58): axes and units of the parent class, frames, times, unit of the
    times.  [tfa]: the attribute fields is a numpy array (it starts as a list).  field_type is not modelled: all
    frames have type [F]. *)
Record tfield (F : Type) : Type := mktf { tfg : grid; tff : list F; tfa : bool; tft : list num; tfu : unit_t }.
Arguments mktf {F} _ _ _ _ _. Arguments tfg {F} _. Arguments tff {F} _. Arguments tfa {F} _.
Arguments tft {F} _. Arguments tfu {F} _.
Definition one_unit : unit_t := mkunit [] 1%num.
Definition tf_new {F} : tfield F := mktf (mkgrid [] [] one_unit one_unit) [] false [] one_unit.

(** selection of the elements of [l] at the positions [idx] *)
Definition pick {A} (idx : list nat) (l : list A) : list A :=
  flat_map (fun i => match nth_error l i with Some x => [x] | None => [] end) idx.
(** __sort_field_by_time (1556-1561); the setter of times refuses another number of times than of fields *)
Definition tf_sort {F} (asort : list num -> list nat) (t : tfield F) : tfield F * option exn :=
  if Nat.leb (length (tff t)) 1 then (t, None)
  else
    let o := asort (tft t) in
    if negb (Nat.eqb (length o) (length (tff t))) then (t, Some ValueErr)
    else (mktf (tfg t) (pick o (tff t)) (tfa t) (gather (qz 0) o (tft t)) (tfu t), None).
(** add_field (1085-1142).  The guard of 1131 raises only when the x axes differ and the y axes agree.  The time is
    multiplied by self.unit_times / unit_times (1135).  A unit of another dimension is not modelled ([UnitErr]):
    asNumber() without argument does not check it. *)
Definition tf_add {F} (ops : fops F) (asort : list num -> list nat) (t : tfield F) (f : F) (time : num) (u : unit_t)
  : tfield F * option exn :=
  match tff t with
  | [] => tf_sort asort (mktf (o_grid ops f) [f] true [time] u)
  | _ =>
    let g := o_grid ops f in
    if (negb (list_eqb (ax (tfg t)) (ax g)) && list_eqb (ay (tfg t)) (ay g))%bool then (t, Some ValueErr)
    else if negb (dim_eqb (dim u) (dim (tfu t))) then (t, Some UnitErr)
    else tf_sort asort (mktf (tfg t) (tff t ++ [f]) true (tft t ++ [(time * (sc (tfu t) / sc u))%num]) (tfu t))
  end.
(** remove_fields (1144-1157) and Fields.remove_field (fields.py:140-152): all the times first, one np.delete per
    index, then all the fields *)
Fixpoint del_each {A} (l : list A) (inds : list Z) : list A * option exn :=
  match inds with
  | [] => (l, None)
  | i :: r => match np_delete [i] l with Ok l' => del_each l' r | Err e => (l, Some e) end
  end.
Definition tf_remove {F} (t : tfield F) (inds : list Z) : tfield F * option exn :=
  match del_each (tft t) inds with
  | (times, Some e) => (mktf (tfg t) (tff t) (tfa t) times (tfu t), Some e)
  | (times, None) =>
    let (fs, e) := del_each (tff t) inds in
    (mktf (tfg t) fs (match inds with [] => tfa t | _ => true end) times (tfu t), e)
  end.
(** times setter (255-263): only the number of times is checked *)
Definition tf_set_times {F} (t : tfield F) (l : list num) : res (tfield F) :=
  raise ValueErr when (negb (Nat.eqb (length (tff t)) (length l))) ;;
  Ok (mktf (tfg t) (tff t) (tfa t) l (tfu t)).
(** unit_times setter (278-288): with a unit it is stored; with a string, line 285 compares instead of assigning *)
Definition tf_set_unit {F} (t : tfield F) (u : unit_t) (as_string : bool) : tfield F :=
  if as_string then t else mktf (tfg t) (tff t) (tfa t) (tft t) u.
(** setters of the axes and of their units (169-193): the new value is written in the container and in all frames *)
Definition tf_set_grid {F} (ops : fops F) (t : tfield F) (g : grid) : tfield F :=
  mktf g (map (fun f => o_setgrid ops f g) (tff t)) (tfa t) (tft t) (tfu t).
Definition tf_set_axe_x {F} (ops : fops F) (t : tfield F) (x : list num) : tfield F :=
  let set (g : grid) := mkgrid x (ay g) (ux g) (uy g) in
  mktf (set (tfg t)) (map (fun f => o_setgrid ops f (set (o_grid ops f))) (tff t)) (tfa t) (tft t) (tfu t).
Definition tf_set_axe_y {F} (ops : fops F) (t : tfield F) (y : list num) : tfield F :=
  let set (g : grid) := mkgrid (ax g) y (ux g) (uy g) in
  mktf (set (tfg t)) (map (fun f => o_setgrid ops f (set (o_grid ops f))) (tff t)) (tfa t) (tft t) (tfu t).
Definition tf_set_ux {F} (ops : fops F) (t : tfield F) (u : unit_t) : tfield F :=
  let set (g : grid) := mkgrid (ax g) (ay g) u (uy g) in
  mktf (set (tfg t)) (map (fun f => o_setgrid ops f (set (o_grid ops f))) (tff t)) (tfa t) (tft t) (tfu t).
Definition tf_set_uy {F} (ops : fops F) (t : tfield F) (u : unit_t) : tfield F :=
  let set (g : grid) := mkgrid (ax g) (ay g) (ux g) u in
  mktf (set (tfg t)) (map (fun f => o_setgrid ops f (set (o_grid ops f))) (tff t)) (tfa t) (tft t) (tfu t).
(** __iter__ (156-158) *)
Definition tf_iter {F} (t : tfield F) : list (num * F) := combine (tft t) (tff t).

(** ** crop (1477-1537); the window on the times is the same code as in TemporalPoints ([tp_window]: here 1499-1512) *)
Definition tf_cut {F} (t : tfield F) (i1 i2 : nat) : tfield F :=
  mktf (tfg t) (slice i1 (i2 + 1) (tff t)) (tfa t) (slice i1 (i2 + 1) (tft t)) (tfu t).
Definition tf_crop {F} (ops : fops F) (t : tfield F) (ivx ivy ivt : option (num * num)) : res (tfield F) :=
  let* c := (match ivt with
             | None => Ok t
             | Some (t1, t2) => let* (i1, i2) := tp_window (tft t) t1 t2 in Ok (tf_cut t i1 i2)
             end) in
  let* (w, g) := grid_crop (tfg c) ivx ivy in
  let* fs := mapM (fun f => o_crop ops f ivx ivy) (tff c) in
  Ok (mktf g fs (tfa c) (tft c) (tfu c)).
(** ind=True (1514): python slices; negative bounds count from the end and are not modelled (nat) *)
Definition tf_crop_ind {F} (ops : fops F) (t : tfield F) (ivx ivy : option (Z * Z)) (ivt : option (nat * nat)) : res (tfield F) :=
  let c := match ivt with None => t | Some (i1, i2) => tf_cut t i1 i2 end in
  let* (w, g) := grid_crop_ind (tfg c) ivx ivy in
  let* fs := mapM (fun f => o_cropi ops f ivx ivy) (tff c) in
  Ok (mktf g fs (tfa c) (tft c) (tfu c)).

(** ** set_origin (1539-1548): field.py 469-476 through the setters *)
Definition tf_set_origin {F} (ops : fops F) (t : tfield F) (x y : option num) : tfield F :=
  let t1 := match x with None => t | Some _ => tf_set_axe_x ops t (shift_axis (ax (tfg t)) x) end in
  match y with None => t1 | Some _ => tf_set_axe_y ops t1 (shift_axis (ay (tfg t1)) y) end.
(** ** rotate (fields.py:81-121) *)
Definition tf_rotate {F} (ops : fops F) (t : tfield F) (angle : Z) : res (tfield F) :=
  raise ValueErr when (negb (angle mod 90 =? 0)%Z) ;;
  let* g := grid_rotate (tfg t) (angle mod 360) in
  let* fs := mapM (fun f => o_rotate ops f (angle mod 360)) (tff t) in
  Ok (mktf g fs (tfa t) (tft t) (tfu t)).
(** ** extend (954-986) *)
Definition tf_extend {F} (ops : fops F) (t : tfield F) (nl nr nu nd : nat) : res (tfield F) :=
  let* g := grid_extend (tfg t) nl nr nu nd in
  let* fs := mapM (fun f => o_extend ops f nl nr nu nd) (tff t) in
  Ok (mktf g fs (tfa t) (tft t) (tfu t)).
(** ** scale (988-1030): field.py 315-354 through the setters of the container (no frame is reversed), then the
    values of each frame (fields.py:54-79), then the times *)
Definition tf_scale {F} (ops : fops F) (t : tfield F) (sx sy sv st : sarg) : tfield F :=
  let '(x, u, _) := scale_axis (ax (tfg t)) (ux (tfg t)) sx in
  let t1 := match sx with SNone => t | SNum _ => tf_set_axe_x ops t x
                        | SUnum _ _ => tf_set_axe_x ops (tf_set_ux ops t u) x end in
  let '(y, w, _) := scale_axis (ay (tfg t1)) (uy (tfg t1)) sy in
  let t2 := match sy with SNone => t1 | SNum _ => tf_set_axe_y ops t1 y
                        | SUnum _ _ => tf_set_axe_y ops (tf_set_uy ops t1 w) y end in
  let fs := map (fun f => o_scalev ops f sv) (tff t2) in
  let '(times, ut) := match st with
                      | SNone => (tft t2, tfu t2)
                      | SNum s => (map (fun a => a * s)%num (tft t2), tfu t2)
                      | SUnum s w' => (map (fun a => a * s)%num (tft t2), unit_mul (tfu t2) w')
                      end in
  mktf (tfg t2) fs (tfa t2) times ut.
(** ** change_unit (1052-1083): the frames, then (for x and y) the container through its setters *)
Inductive taxis := TAx (a : axname) | TTime.
Definition tf_change_unit {F} (ops : fops F) (t : tfield F) (a : taxis) (new : unit_t) : res (tfield F) :=
  match a with
  | TTime => let* fact := conv (tfu t) new in
             Ok (mktf (tfg t) (tff t) (tfa t) (map (fun x => x * fact)%num (tft t)) new)
  | TAx AxOther => Err ValueErr
  | TAx b =>
    let* fs := mapM (fun f => o_unit ops f b new) (tff t) in
    let t1 := mktf (tfg t) fs (tfa t) (tft t) (tfu t) in
    match b with
    | AxX => let* fact := conv (ux (tfg t1)) new in
             let t2 := tf_set_ux ops t1 new in
             Ok (tf_set_axe_x ops t2 (map (fun x => x * fact)%num (ax (tfg t2))))
    | AxY => let* fact := conv (uy (tfg t1)) new in
             let t2 := tf_set_uy ops t1 new in
             Ok (tf_set_axe_y ops t2 (map (fun y => y * fact)%num (ay (tfg t2))))
    | _ => Ok t1
    end
  end.
(** ** reduce_spatial_resolution (1159-1186), inplace=False: the returned copy and the original afterwards.  Lines
    1184-1185 rewrite the axes of self (with its own unreduced axes), not those of the returned object. *)
Definition tf_reduce_spatial {F} (ops : fops F) (reduce : F -> Z -> res F) (t : tfield F) (fact : Z) : res (tfield F * tfield F) :=
  let* fs := mapM (fun f => reduce f fact) (tff t) in
  let tmp := mktf (tfg t) fs (tfa t) (tft t) (tfu t) in
  match tff t with
  | [] => Err IndexErr
  | f :: _ => let t1 := tf_set_axe_x ops t (ax (o_grid ops f)) in
              let t2 := tf_set_axe_y ops t1 (match tff t1 with f1 :: _ => ay (o_grid ops f1) | [] => [] end) in
              Ok (tmp, t2)
  end.

(** ** Arithmetic (60-154) *)
(** self + other field, or self + number (the last branch): every frame.  [pl] is the addition of the frame *)
Definition tf_plus_each {F} (t : tfield F) (pl : F -> res F) : res (tfield F) :=
  let* fs := mapM pl (tff t) in Ok (mktf (tfg t) fs (tfa t) (tft t) (tfu t)).
Fixpoint add_all {F} (ops : fops F) (asort : list num -> list nat) (t : tfield F) (l : list (F * num * unit_t)) : tfield F * option exn :=
  match l with
  | [] => (t, None)
  | (f, time, u) :: r =>
    match tf_add ops asort t f time u with (t', None) => add_all ops asort t' r | (t', Some e) => (t', Some e) end
  end.
Definition out_res {A} (r : A * option exn) : res A := match r with (a, None) => Ok a | (_, Some e) => Err e end.
(** self + other series (66-75): same times, frame by frame; otherwise the frames of the other are added, all at
    time 0 and without unit (74) *)
Definition tf_plus {F} (ops : fops F) (asort : list num -> list nat) (t s : tfield F) : res (tfield F) :=
  if list_eqb (tft t) (tft s) then
    (* other.fields[i] (70) raises when the other has fewer fields *)
    raise IndexErr when (Nat.ltb (length (tff s)) (length (tff t))) ;;
    let* fs := mapM (fun p => o_add ops (fst p) (snd p)) (combine (tff t) (tff s)) in
    Ok (mktf (tfg t) fs (tfa t) (tft t) (tfu t))
  else out_res (add_all ops asort t (map (fun f => (f, 0%num, one_unit)) (tff s))).
Definition tf_neg {F} (ops : fops F) (t : tfield F) : tfield F :=
  mktf (tfg t) (map (o_neg ops) (tff t)) (tfa t) (tft t) (tfu t).
(** __mul__ by a number (104-108): add_field without time *)
Definition tf_mul_num {F} (ops : fops F) (asort : list num -> list nat) (t : tfield F) (c : num) : res (tfield F) :=
  out_res (add_all ops asort tf_new (map (fun f => (o_muln ops f c, 0%num, one_unit)) (tff t))).
(** the guards of __mul__ and __truediv__ with another series (92-98, 116-122) *)
Definition series_guard {F} (t s : tfield F) : bool :=
  (negb (Nat.eqb (length (tff t)) (length (tff s)))
   || (negb (list_eqb (ax (tfg t)) (ax (tfg s))) && list_eqb (ay (tfg t)) (ay (tfg s)))
   || negb (list_eqb (tft t) (tft s)))%bool.
Definition tf_mul {F} (ops : fops F) (asort : list num -> list nat) (t s : tfield F) : res (tfield F) :=
  raise GenericErr when (series_guard t s) ;;
  let* fs := mapM (fun p => o_mul ops (fst p) (snd p)) (combine (tff t) (tff s)) in
  out_res (add_all ops asort tf_new (map (fun f => (f, 0%num, one_unit)) fs)).
Definition tf_div {F} (ops : fops F) (asort : list num -> list nat) (t s : tfield F) : res (tfield F) :=
  raise GenericErr when (series_guard t s) ;;
  let* fs := mapM (fun p => o_div ops (fst p) (snd p)) (combine (tff t) (tff s)) in
  out_res (add_all ops asort tf_new (map (fun f => (f, 0%num, one_unit)) fs)).
(** __truediv__ by a number (135-140): add_field is given the number instead of the quotient and refuses it; an empty
    series already fails on self.fields[0] (127) *)
Definition tf_div_num {F} (t : tfield F) (c : num) : res (tfield F) :=
  match tff t with [] => Err IndexErr | _ => Err TypeErr end.

(** ** get_mean_field (296-342) *)
Definition count_valid {F} (ops : fops F) (l : list F) (i j : nat) : nat :=
  length (filter (fun f => negb (at_ (o_mask ops f) i j)) l).
Fixpoint sum_filled {F} (ops : fops F) (acc : F) (l : list F) : res F :=
  match l with
  | [] => Ok acc
  | f :: r => let* a := o_fill0 ops f in let* acc' := o_add ops acc a in sum_filled ops acc' r
  end.
Definition tf_mean {F} (ops : fops F) (t : tfield F) (nmb_min : Z) : res F :=
  match tff t with
  | [] => Err ValueErr
  | f :: r =>
    let n := length (ax (tfg t)) in let m := length (ay (tfg t)) in
    let* a := o_fill0 ops f in
    let* s := sum_filled ops a r in
    (* mask_cum is indexed by the mask of each frame: the shapes must agree *)
    raise IndexErr when (existsb (fun h => negb (Nat.eqb (d0 (o_mask ops h)) n && Nat.eqb (d1 (o_mask ops h)) m)) (tff t)) ;;
    let cnt := count_valid ops (tff t) in
    let mask := mkarr n m (fun i j => (Z.of_nat (cnt i j) <=? nmb_min)%Z) in
    let* s1 := o_setmask ops s mask in
    o_diva ops s1 (mkarr n m (fun i j => Some (if at_ mask i j then 1%num else qn (cnt i j))))
  end.
(** ** get_interpolated_field (344-365).  [inl]: the stored frame; the assertions are [GenericErr] *)
Definition tf_interp {F} (ops : fops F) (t : tfield F) (time : num) : res F :=
  raise IndexErr when (match tft t with [] => true | _ => false end) ;;
  raise GenericErr when (qltb time (nths (tft t) 0) || qltb (last (tft t) (qz 0)) time)%bool ;;
  match find (fun i => qeqb (nths (tft t) i) time) (seq 0 (length (tft t))) with
  | Some i => raise TypeErr when (negb (tfa t)) ;;
              match nth_error (tff t) i with Some f => Ok f | None => Err IndexErr end
  | None =>
    match find (fun i => qltb time (nths (tft t) i)) (seq 0 (length (tft t))) with
    | Some i =>
      let denom := (nths (tft t) i - nths (tft t) (i - 1))%num in
      let c1 := ((nths (tft t) i - time) / denom)%num in
      let c2 := ((time - nths (tft t) (i - 1)) / denom)%num in
      match nth_error (tff t) i, nth_error (tff t) (i - 1) with
      | Some f, Some f0 => o_add ops (o_muln ops f c2) (o_muln ops f0 c1)
      | _, _ => Err IndexErr
      end
    | None => Err IndexErr
    end
  end.
(** ** get_fluctuant_fields (367-386) *)
Definition tf_fluct {F} (ops : fops F) (asort : list num -> list nat) (t : tfield F) (nmb_min : Z) : res (tfield F) :=
  let* m := tf_mean ops t nmb_min in
  let* fs := mapM (fun p => let* d := o_add ops (snd p) (o_neg ops m) in Ok (d, fst p, tfu t)) (tf_iter t) in
  out_res (add_all ops asort tf_new fs).
(** ** reduce_temporal_resolution (1188-1242), inplace=False *)
Fixpoint sum_frames {F} (ops : fops F) (t : tfield F) (acc : F) (time : num) (js : list nat) : res (F * num) :=
  match js with
  | [] => Ok (acc, time)
  | j :: r => match nth_error (tff t) j, nth_error (tft t) j with
              | Some f, Some x => let* acc' := o_add ops acc f in sum_frames ops t acc' (time + x)%num r
              | _, _ => Err IndexErr
              end
  end.
Definition one_group {F} (ops : fops F) (t : tfield F) (n : nat) (mean : bool) (i : nat) : res (F * num) :=
  match nth_error (tff t) i, nth_error (tft t) i with
  | Some f, Some x =>
    if mean then let* (s, ts) := sum_frames ops t f x (seq (i + 1) (n - 1)) in
                 Ok (o_divn ops s (qn n), (ts / qn n)%num)
    else Ok (f, x)
  | _, _ => Err IndexErr
  end.
Fixpoint reduce_loop {F} (ops : fops F) (asort : list num -> list nat) (fuel : nat) (t : tfield F) (n : nat) (mean : bool) (i : nat) (acc : tfield F)
  : res (tfield F) :=
  match fuel with
  | 0 => Err OutOfFuel
  | S fuel' =>
    let* (f, x) := one_group ops t n mean i in
    let* acc' := out_res (tf_add ops asort acc f x (tfu t)) in
    if Nat.leb (length (tff t)) (i + n + n) then Ok acc' else reduce_loop ops asort fuel' t n mean (i + n) acc'
  end.
Definition tf_reduce {F} (ops : fops F) (asort : list num -> list nat) (t : tfield F) (n : Z) (mean : bool) : res (tfield F) :=
  raise TypeErr when (n <=? 0)%Z ;;
  if (n =? 1)%Z then Ok t
  else
    raise ValueErr when (Z.of_nat (length (tff t)) <=? n)%Z ;;
    reduce_loop ops asort (S (length (tff t))) t (Z.to_nat n) mean 0 tf_new.
(** ** augment_temporal_resolution (1244-1287): np.linspace between consecutive times without its last point.  The
    new list of frames is a python list. *)
Definition aug_times (times : list num) (fact : nat) : list num :=
  flat_map (fun i => map (fun k => nths times i + qn k * ((nths times (S i) - nths times i) / qn fact))%num (seq 0 fact))
           (seq 0 (length times - 1)) ++ [last times (qz 0)].
Definition tf_augment {F} (ops : fops F) (t : tfield F) (fact : Z) : res (tfield F) :=
  raise GenericErr when (fact <=? 0)%Z ;;
  if (fact =? 1)%Z then Ok t
  else
    raise IndexErr when (match tft t with [] => true | _ => false end) ;;
    let nt := aug_times (tft t) (Z.to_nat fact) in
    let* fs := mapM (tf_interp ops t) nt in
    Ok (mktf (tfg t) fs false nt (tfu t)).

(** ** get_recurrence_map (876-952), normalized=False, integer norm p >= 1.  The power 1/norm is the parameter [root].
    [vals] gives the numbers compared: the values of a scalar frame, the two components of a vector frame. *)
Fixpoint qpow (x : num) (n : nat) : num := match n with 0 => 1%num | S k => (x * qpow x k)%num end.
Definition opow (p : nat) (d : onum) : onum :=
  option_map (fun x => if Nat.even p then qpow x p else qpow (qabs x) p) d.
Definition rec_entry (root : num -> num) (p nmb : nat) (a b : list onum) : onum :=
  option_map (fun s => root s / qn nmb)%num (osum (map (fun q => opow p (osub (fst q) (snd q))) (combine a b))).
Definition too_far (bandwidth : option Z) (i j : nat) : bool :=
  match bandwidth with None => false | Some b => (b <? Z.abs (Z.of_nat i - Z.of_nat j))%Z end.
(** the double loop fills the cells (i, j) and (j, i) for i < j; the diagonal is 0 *)
Definition rec_map {F} (vals : F -> list onum) (root : num -> num) (p nmb : nat) (bandwidth : option Z) (fs : list F) : arr onum :=
  mkarr (length fs) (length fs) (fun a b =>
    let i := Nat.min a b in let j := Nat.max a b in
    if Nat.eqb i j then Some 0%num
    else if too_far bandwidth i j then None
    else match nth_error fs i, nth_error fs j with
         | Some f, Some h => rec_entry root p nmb (vals f) (vals h)
         | _, _ => None
         end).
Definition sf_vals (f : sfield) : list onum := flatten (values f).
Definition vf_vals (f : vfield) : list onum := flatten (cx f) ++ flatten (cy f).
Definition tf_recurrence {F} (ops : fops F) (vals : F -> list onum) (per_cell : nat) (uvals : unit_t) (root : num -> num)
           (t : tfield F) (p : nat) (bandwidth : option Z) : res sfield :=
  let nmb := length (ax (tfg t)) * length (ay (tfg t)) * per_cell in
  sf_import (tft t) (tft t) (rec_map vals root p nmb bandwidth (tff t)) None (tfu t) (tfu t) uvals.

(** ** get_min_field and get_max_field (temporalscalarfields.py:51-97).  [better a b]: a < b, respectively a > b;
    comparisons with NaN are False.  Writing in result_f.values writes in the stored array. *)
Definition ocmp (better : num -> num -> bool) (a b : onum) : bool :=
  match a, b with Some x, Some y => better x y | _, _ => false end.
Definition extr_step (better : num -> num -> bool) (acc f : sfield) : sfield :=
  mksf (sg acc) (mkarr (d0 (raw acc)) (d1 (raw acc)) (fun i j =>
        if (ocmp better (at_ (values f) i j) (at_ (values acc) i j) && negb (at_ (msk f) i j))%bool
        then at_ (values f) i j else at_ (values acc) i j)) (msk acc) (uv acc).
Definition tsf_extremum (better : num -> num -> bool) (t : tfield sfield) (nmb_min : Z) : res sfield :=
  match tff t with
  | [] => Err ValueErr
  | f :: r =>
    let n := length (ax (tfg t)) in let m := length (ay (tfg t)) in
    raise IndexErr when (existsb (fun h => negb (Nat.eqb (d0 (msk h)) n && Nat.eqb (d1 (msk h)) m)) (tff t)) ;;
    let s := fold_left (extr_step better) r f in
    set_mask s (mkarr n m (fun i j => (Z.of_nat (count_valid sf_ops (tff t) i j) <=? nmb_min)%Z))
  end.
Definition tsf_min := tsf_extremum qltb.
Definition tsf_max := tsf_extremum (fun a b => qltb b a).

(** ** get_time_profile (450-518): at a fixed position ([pt] an array) and along a set of dated points *)
Definition out_window (wt : option (num * num)) (time : num) : bool :=
  match wt with None => false | Some (a, b) => (qltb time a || qltb b time)%bool end.
Definition wanted_inds (wt : option (num * num)) (times : list num) (masked : list bool) : list nat :=
  filter (fun k => negb (nth k masked false || out_window wt (nths times k))) (seq 0 (length times)).
(** one value per wanted time [k], read at the cell [pt[i]] where i is the rank of k among the wanted times (506-510) *)
Definition time_samples {F} (ops : fops F) (comp : F -> arr onum) (t : tfield F) (cells : list (nat * nat)) (inds : list nat)
  : res (list onum * list bool) :=
  let* l := mapM (fun p => match nth_error (tff t) (snd p), nth_error cells (fst p) with
                           | Some f, Some (i, j) => Ok (at_ (comp f) i j, at_ (o_mask ops f) i j)
                           | _, _ => Err IndexErr
                           end) (combine (seq 0 (length inds)) inds) in
  Ok (map fst l, map snd l).
Definition nearest_cell (g : grid) (x y : num) : res (nat * nat) :=
  let* ix := get_indice_on_axe g 1 x KNearest in
  let* iy := get_indice_on_axe g 2 y KNearest in
  match ix, iy with IInd i, IInd j => Ok (i, j) | _, _ => Err TypeErr end.
Definition bad_window (wt : option (num * num)) : bool := match wt with Some (a, b) => qleb b a | None => false end.
Definition tf_time_profile {F} (ops : fops F) (comp : F -> arr onum) (uvals : unit_t) (t : tfield F) (x y : num) (wt : option (num * num))
  : res profile :=
  let* c := nearest_cell (tfg t) x y in
  raise ValueErr when (bad_window wt) ;;
  let inds := wanted_inds wt (tft t) (repeat false (length (tft t))) in
  let* (v, m) := time_samples ops comp t (repeat c (length (tft t))) inds in
  prof_new (map (fun k => nths (tft t) k) inds) v (Some m) (tfu t) uvals.
Definition tf_time_profile_along {F} (ops : fops F) (comp : F -> arr onum) (uvals : unit_t) (t : tfield F) (p : points) (wt : option (num * num))
  : res profile :=
  let masked := map (fun time => negb (memq time (pv p))) (tft t) in
  let* cells := mapM (fun q => nearest_cell (tfg t) (fst q) (snd q)) (xy p) in
  raise ValueErr when (bad_window wt) ;;
  let inds := wanted_inds wt (tft t) masked in
  let* (v, m) := time_samples ops comp t cells inds in
  prof_new (map (fun k => nths (tft t) k) inds) v (Some m) (tfu t) uvals.
(** mask_cum (219-223): True where every frame is masked *)
Definition tf_mask_cum {F} (ops : fops F) (t : tfield F) : arr bool :=
  mkarr (length (ax (tfg t))) (length (ay (tfg t))) (fun i j => forallb (fun f => at_ (o_mask ops f) i j) (tff t)).
