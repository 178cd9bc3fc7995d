(** * Vf2Model: operators of vector fields and comparisons of fields (core/vectorfield.py, core/scalarfield.py), float dtype. *)
From Verif Require Import Num Res ListLib Arr FieldModel ScalarFieldModel VectorFieldModel PointsModel TemporalModel AsciiModel SpatialModel.

(** ** __add__ of two vector fields (vectorfield.py 58-124) *)
(** the boolean indexes of lines 78-89, as the positions where they are true *)
Definition fuzzy_idx (a b : list num) : list nat := filter (fun i => fuzzy_in (nths a i) b) (seq 0 (length a)).
(** indexing a two-dimensional array by a two-dimensional boolean array: the selected cells line after line *)
Definition bsel {A} (ix iy : list nat) (a : arr A) : list A := flat_map (fun i => map (fun j => at_ a i j) iy) ix.
(** an operation of numpy between two arrays of one dimension: same lengths, or one of them has one element *)
Definition bcast {A B C} (f : A -> B -> C) (l : list A) (k : list B) : res (list C) :=
  if Nat.eqb (length l) (length k) then Ok (map (fun p => f (fst p) (snd p)) (combine l k))
  else match l, k with
       | [a], _ => Ok (map (f a) k)
       | _, [b] => Ok (map (fun a => f a b) l)
       | _, _ => Err ValueErr
       end.
Definition pick_axis (ix : list nat) (l : list num) : list num := map (fun i => nths l i) ix.
Definition is_nil {A} (l : list A) : bool := match l with [] => true | _ => false end.
(** The comparison of axes of different lengths is False, as in the numpy releases of the time of the code. *)
Definition vf_add (f h : vfield) : res vfield :=
  raise ValueErr when (negb (dim_eqb (dim (vuv f)) (dim (vuv h)) && dim_eqb (dim (ux (vg f))) (dim (ux (vg h)))
                             && dim_eqb (dim (uy (vg f))) (dim (uy (vg h)))))%bool ;;
  if (list_eqb (ax (vg f)) (ax (vg h)) && list_eqb (ay (vg f)) (ay (vg h)))%bool then vf_add_same f h
  else
    let ix := fuzzy_idx (ax (vg f)) (ax (vg h)) in
    let iy := fuzzy_idx (ay (vg f)) (ay (vg h)) in
    let ixo := fuzzy_idx (ax (vg h)) (ax (vg f)) in
    let iyo := fuzzy_idx (ay (vg h)) (ay (vg f)) in
    raise ValueErr when (is_nil ix || is_nil iy)%bool ;;
    let x := pick_axis ix (ax (vg f)) in
    let y := pick_axis iy (ay (vg f)) in
    let* fact := conv (vuv h) (vuv f) in
    let* vx := bcast oadd (bsel ix iy (cx f)) (map (oscale fact) (bsel ixo iyo (cx h))) in
    let* vy := bcast oadd (bsel ix iy (cy f)) (map (oscale fact) (bsel ixo iyo (cy h))) in
    let* vx := reshape None (length x) (length y) vx in
    let* vy := reshape None (length x) (length y) vy in
    let* m := bcast orb (bsel ix iy (vmsk f)) (bsel ixo iyo (vmsk h)) in
    let* m := reshape false (length x) (length y) m in
    vf_import x y vx vy m (ux (vg f)) (uy (vg f)) (vuv f).
(** __sub__ (159-162): self + (-other) *)
Definition vf_sub (f h : vfield) : res vfield := vf_add f (vf_neg h).

(** ** Sums with numbers and arrays (125-153): the same number, array or vector is added to the components; the mask is
    assigned again, which writes NaN in the masked cells *)
Definition vf_shift (f : vfield) (sx sy : arr onum) : res vfield :=
  let* f1 := vf_set_comp_x f (amap2 oadd (cx f) sx) in
  let* f2 := vf_set_comp_y f1 (amap2 oadd (cy f) sy) in
  vf_set_mask f2 (vmsk f).
Definition same_dims {A} (o : arr A) (f : vfield) : bool :=
  (Nat.eqb (d0 o) (length (ax (vg f))) && Nat.eqb (d1 o) (length (ay (vg f))))%bool.
Definition everywhere (f : vfield) (c : num) : arr onum := afull (length (ax (vg f))) (length (ay (vg f))) (Some c).
(** by a number (148-153) *)
Definition vf_add_num (f : vfield) (c : num) : res vfield := vf_shift f (everywhere f c) (everywhere f c).
(** by an array of the shape of the field (126-133) *)
Definition vf_add_arr (f : vfield) (o : arr onum) : res vfield :=
  raise ValueErr when (negb (same_dims o f)) ;; vf_shift f o o.
(** by one vector (134-140), on a field that is not itself of shape (2,) *)
Definition vf_add_vec (f : vfield) (a b : num) : res vfield := vf_shift f (everywhere f a) (everywhere f b).

(** ** __mul__ (204-241) *)
Definition vf_times (f : vfield) (o : arr onum) (m : arr bool) : res vfield :=
  let* f1 := vf_set_comp_x f (amap2 omul (cx f) o) in
  let* f2 := vf_set_comp_y f1 (amap2 omul (cy f) o) in
  vf_set_mask f2 m.
(** by an array (205-213) *)
Definition vf_mul_arr (f : vfield) (o : arr onum) : res vfield :=
  raise ValueErr when (negb (same_dims o f)) ;; vf_times f o (vmsk f).
(** by a scalar field (230-237): its axes and its units are not used *)
Definition vf_mul_sf (f : vfield) (s : sfield) : res vfield :=
  raise ValueErr when (negb (Nat.eqb (length (ax (sg s))) (length (ax (vg f))) && Nat.eqb (length (ay (sg s))) (length (ay (vg f)))))%bool ;;
  vf_times f (values s) (amap2 orb (msk s) (vmsk f)).
(** by a quantity (214-223).  [norm] is unum's normal form of a product: a number and a unit.  The division of the new unit by a null
    number (line 218) raises ZeroDivisionError *)
Definition vf_mul_unum (norm : unit_t -> num * unit_t) (f : vfield) (c : num) (u : unit_t) : res vfield :=
  let '(k, w) := norm (unit_mul (vuv f) u) in
  raise GenericErr when (qeqb (c * k)%num 0%num) ;;
  let f1 := mkvf (vg f) (cx f) (cy f) (vmsk f) w in
  vf_times f1 (everywhere f (c * k)%num) (vmsk f).
(** ** __truediv__ by a quantity (178-188) *)
Definition vf_div_unum (norm : unit_t -> num * unit_t) (f : vfield) (c : num) (u : unit_t) : res vfield :=
  let '(k, w) := norm (unit_div (vuv f) u) in
  raise GenericErr when (qeqb c 0%num || qeqb k 0%num)%bool ;;
  let f1 := mkvf (vg f) (cx f) (cy f) (vmsk f) w in
  vf_times f1 (everywhere f (k / c)%num) (vmsk f).
(** ** __abs__ (254-258) *)
Definition vf_abs (f : vfield) : vfield :=
  mkvf (vg f) (amap (option_map qabs) (cx f)) (amap (option_map qabs) (cy f)) (vmsk f) (vuv f).

(** ** VectorField.__eq__ (270-292), between two vector fields.  NaN differs from everything. *)
Definition cells_of (n m : nat) : list (nat * nat) := aidx n m.
Definition oeqb_num (a b : onum) : bool := match a, b with Some x, Some y => qeqb x y | _, _ => false end.
Definition vf_eqb (f h : vfield) : bool :=
  let n := length (ax (vg f)) in let m := length (ay (vg f)) in
  let shown := filter (fun p => negb (at_ (vmsk f) (fst p) (snd p))) (cells_of n m) in
  (Nat.eqb n (length (ax (vg h))) && Nat.eqb m (length (ay (vg h)))
   && list_eqb (ax (vg f)) (ax (vg h)) && list_eqb (ay (vg f)) (ay (vg h))
   && forallb (fun p => Bool.eqb (at_ (vmsk f) (fst p) (snd p)) (at_ (vmsk h) (fst p) (snd p))) (cells_of n m)
   && forallb (fun p => oeqb_num (at_ (cx f) (fst p) (snd p)) (at_ (cx h) (fst p) (snd p))) shown
   && forallb (fun p => oeqb_num (at_ (cy f) (fst p) (snd p)) (at_ (cy h) (fst p) (snd p))) shown
   && unit_eqb (ux (vg f)) (ux (vg h)) && unit_eqb (uy (vg f)) (uy (vg h)) && unit_eqb (vuv f) (vuv h))%bool.

(** ** ScalarField.__eq__ (scalarfield.py 53-71), between two scalar fields.
    numpy.allclose: |a - b| <= 1e-8 + 1e-5 |b|, on arrays of the same length, or of which one has one element *)
Definition nearly (a b : num) : bool := qleb (qabs (a - b)) (qq 1 100000000 + qq 1 100000 * qabs b)%num.
Definition onearly (a b : onum) : bool := match a, b with Some x, Some y => nearly x y | _, _ => false end.
Definition allclose {A} (c : A -> A -> bool) (l k : list A) : res bool :=
  let* r := bcast c l k in Ok (forallb (fun b => b) r).
Definition shown_values (f : sfield) : list onum :=
  map (fun p => at_ (values f) (fst p) (snd p))
      (filter (fun p => negb (at_ (msk f) (fst p) (snd p))) (aidx (length (ax (sg f))) (length (ay (sg f))))).
(** masks whose shapes differ after the comparison of the axes (an axis of one element was broadcast): not modelled, OutOfFuel *)
Definition sf_eq (f h : sfield) : res bool :=
  let* bx := allclose nearly (ax (sg f)) (ax (sg h)) in
  if negb bx then Ok false else
  let* by_ := allclose nearly (ay (sg f)) (ay (sg h)) in
  if negb by_ then Ok false else
  raise OutOfFuel when (negb (Nat.eqb (length (ax (sg f))) (length (ax (sg h))) && Nat.eqb (length (ay (sg f))) (length (ay (sg h)))))%bool ;;
  if negb (forallb (fun p => Bool.eqb (at_ (msk f) (fst p) (snd p)) (at_ (msk h) (fst p) (snd p))) (aidx (length (ax (sg f))) (length (ay (sg f)))))
  then Ok false else
  let* bv := allclose onearly (shown_values f) (shown_values h) in
  if negb bv then Ok false else
  Ok (unit_eqb (ux (sg f)) (ux (sg h)) && unit_eqb (uy (sg f)) (uy (sg h)) && unit_eqb (uv f) (uv h))%bool.

(** ** VectorField.crop_masked_border(hard=True) (1007-1064).  [ly]: the number of columns the third case reads, which is the one of
    the cropped field when inplace=True and the one of the field given otherwise (line 1045) *)
Definition vproj (f : vfield) : sfield := mksf (vg f) (cx f) (vmsk f) (vuv f).
Definition vf_hard_step (ly : vfield -> nat) (f : vfield) : res vfield :=
  let s := vproj f in
  let n := length (ax (vg f)) in let m := length (ay (vg f)) in
  match argmax4 (bd_row s 0) (bd_row s (d0 (vmsk f) - 1)) (bd_col s 0) (bd_col s (d1 (vmsk f) - 1)) with
  | 0 => vf_crop_ind f (Some (1%Z, Z.of_nat n)) None
  | 1 => vf_crop_ind f (Some (0%Z, Z.of_nat n - 2)%Z) None
  | 2 => vf_crop_ind f None (Some (1%Z, Z.of_nat (ly f)))
  | _ => vf_crop_ind f None (Some (0%Z, Z.of_nat m - 2)%Z)
  end.
Fixpoint vf_hard_loop (ly : vfield -> nat) (fuel : nat) (f : vfield) : res vfield :=
  if any_masked (vproj f) then
    match fuel with
    | 0 => Err OutOfFuel
    | S fuel' => let* f' := vf_hard_step ly f in vf_hard_loop ly fuel' f'
    end
  else Ok f.
Definition vf_soft (f : vfield) : res vfield :=
  let s := vproj f in
  match first_ok (row_ok s) (d0 (vmsk f)), last_ok (row_ok s) (d0 (vmsk f)),
        first_ok (col_ok s) (d1 (vmsk f)), last_ok (col_ok s) (d1 (vmsk f)) with
  | Some x0, Some x1, Some y0, Some y1 => vf_crop_ind f (zpair x0 x1) (zpair y0 y1)
  | _, _, _, _ => Err IndexErr
  end.
Definition vf_crop_masked_border (f : vfield) (hard inplace : bool) : res (option vfield) :=
  if any_masked (vproj f) then
    if hard then
      let* f1 := vf_soft f in
      let* f2 := vf_hard_loop (if inplace then fun t => length (ay (vg t)) else fun _ => length (ay (vg f)))
                              (length (ax (vg f1)) + length (ay (vg f1))) f1 in Ok (Some f2)
    else let* f1 := vf_soft f in Ok (Some f1)
  else Ok None.

(** ** VectorField.reduce_spatial_resolution (1188-1218), inplace=False: each component as a scalar field, and the mask of the first *)
Definition vf_reduce (f : vfield) (fact : Z) : res vfield :=
  let* sx := comp_sf f (cx f) in
  let* sy := comp_sf f (cy f) in
  let* rx := sf_reduce sx fact in
  let* ry := sf_reduce sy fact in
  vf_import (ax (sg rx)) (ay (sg rx)) (values rx) (values ry) (msk rx) (ux (vg f)) (uy (vg f)) (vuv f).
