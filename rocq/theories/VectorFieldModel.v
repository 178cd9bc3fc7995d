(** * VectorFieldModel: the VectorField class (IMTreatment/core/vectorfield.py), float dtype. *)
From Verif Require Import Num Res ListLib Arr FieldModel ScalarFieldModel.

(** vectorfield.py:44-50 *)
Record vfield : Type := mkvf { vg : grid; cx : arr onum; cy : arr onum; vmsk : arr bool; vuv : unit_t }.

(** component setters (296-306, 321-331): shape check, the mask is not touched *)
Definition vf_set_comp_x (f : vfield) (v : arr onum) : res vfield :=
  if shape_is v (vg f) then Ok (mkvf (vg f) v (cy f) (vmsk f) (vuv f)) else Err ValueErr.
Definition vf_set_comp_y (f : vfield) (v : arr onum) : res vfield :=
  if shape_is v (vg f) then Ok (mkvf (vg f) (cx f) v (vmsk f) (vuv f)) else Err ValueErr.
(** mask setter (352-375): refuses to reveal masked cells, writes NaN in masked cells *)
Definition nanify (m : arr bool) (v : arr onum) : arr onum :=
  mkarr (d0 v) (d1 v) (fun i j => if at_ m i j then None else at_ v i j).
Definition vf_set_mask (f : vfield) (m : arr bool) : res vfield :=
  raise ValueErr when (negb (shape_is m (vg f))) ;;
  raise WarningExn when (existsb (fun p => at_ (vmsk f) (fst p) (snd p) && negb (at_ m (fst p) (snd p)))%bool
                                 (aidx (d0 (vmsk f)) (d1 (vmsk f)))) ;;
  Ok (mkvf (vg f) (nanify m (cx f)) (nanify m (cy f)) m (vuv f)).

(** import_from_arrays (484-573), one-dimensional axes, array mask.
    The mask is not reversed with the components (548-555). *)
Definition vf_import (x y : list num) (vx vy : arr onum) (m : arr bool) (unx uny unv : unit_t) : res vfield :=
  let m1 := amap2 orb (amap2 orb m (amap isnan vx)) (amap isnan vy) in
  raise IndexErr when (Nat.ltb (length y) 2) ;;
  raise IndexErr when (negb (uneven y) && Nat.ltb (length x) 2)%bool ;;
  let tr := (Nat.eqb (length x) (d1 vx) && Nat.eqb (length y) (d0 vx) && negb (Nat.eqb (length x) (length y)))%bool in
  let vx2 := if tr then atrans vx else vx in
  let vy2 := if tr then atrans vy else vy in
  let m2 := if tr then atrans m1 else m1 in
  let rx := qltb (last x (qz 0)) (nths x 0) in
  let ry := qltb (last y (qz 0)) (nths y 0) in
  let x3 := if rx then rev x else x in
  let vx3 := if rx then aflip0 vx2 else vx2 in
  let vy3 := if rx then aflip0 vy2 else vy2 in
  let y4 := if ry then rev y else y in
  let vx4 := if ry then aflip1 vx3 else vx3 in
  let vy4 := if ry then aflip1 vy3 else vy3 in
  let g := mkgrid x3 y4 unx uny in
  raise ValueErr when (negb (shape_is vx4 g && shape_is vy4 g && shape_is m2 g))%bool ;;
  Ok (mkvf g (nanify m2 vx4) (nanify m2 vy4) m2 unv).

(** __neg__ (52-56) *)
Definition vf_neg (f : vfield) : vfield := mkvf (vg f) (amap oneg (cx f)) (amap oneg (cy f)) (vmsk f) (vuv f).

(** __add__ (58-75), identical axes; the mask assignment cannot reveal anything *)
Definition vf_add_same (f h : vfield) : res vfield :=
  raise ValueErr when (negb (dim_eqb (dim (vuv f)) (dim (vuv h)) && dim_eqb (dim (ux (vg f))) (dim (ux (vg h)))
                             && dim_eqb (dim (uy (vg f))) (dim (uy (vg h)))))%bool ;;
  let* fact := conv (vuv h) (vuv f) in
  let x := amap2 oadd (cx f) (amap (oscale fact) (cx h)) in
  let y := amap2 oadd (cy f) (amap (oscale fact) (cy h)) in
  let m := amap2 orb (vmsk f) (vmsk h) in
  Ok (mkvf (vg f) (nanify m x) (nanify m y) m (vuv f)).
(** the point selection of __add__ on different axes (79-90): |val - other| < |val| * 1e-4 *)
Definition fuzzy_in (v : num) (l : list num) : bool :=
  existsb (fun o => qltb (qabs (v - o)%num) (qabs v * qq 1 10000)%num) l.
Definition vf_common_x (f h : vfield) : list num := filter (fun v => fuzzy_in v (ax (vg h))) (ax (vg f)).

(** scale (697-741): components reversed and their sign changed; the mask is not reversed *)
Definition vf_scale (f : vfield) (sx sy sv : sarg) : vfield :=
  let '(g, rx, ry) := grid_scale (vg f) sx sy in
  let '(x1, y1, u1) :=
    match sv with
    | SNone => (cx f, cy f, vuv f)
    | SNum s => (amap (oscale s) (cx f), amap (oscale s) (cy f), vuv f)
    | SUnum s w => (amap (oscale s) (cx f), amap (oscale s) (cy f), unit_mul (vuv f) w)
    end in
  match rx, ry with
  | true, true => mkvf g (amap oneg (aflip1 (aflip0 x1))) (amap oneg (aflip1 (aflip0 y1))) (vmsk f) u1
  | true, false => mkvf g (amap oneg (aflip0 x1)) (aflip0 y1) (vmsk f) u1
  | false, true => mkvf g (aflip1 x1) (amap oneg (aflip1 y1)) (vmsk f) u1
  | false, false => mkvf g x1 y1 (vmsk f) u1
  end.

(** rotate (743-793); cos and sin of multiples of 90 degrees are taken exactly *)
Definition cos90 (k : nat) : num := match k with 0 => qz 1 | 2 => qz (-1) | _ => qz 0 end.
Definition sin90 (k : nat) : num := match k with 1 => qz 1 | 3 => qz (-1) | _ => qz 0 end.
Definition osub (a b : onum) : onum := lift2 Qcminus a b.
Definition vf_rotate (f : vfield) (angle : Z) : res vfield :=
  raise ValueErr when (negb (angle mod 90 =? 0)%Z) ;;
  let* g := grid_rotate (vg f) (angle mod 360) in
  let k := quarter angle in
  let x := rot90 k (cx f) in
  let y := rot90 k (cy f) in
  Ok (mkvf g (amap2 osub (amap (oscale (cos90 k)) x) (amap (oscale (sin90 k)) y))
             (amap2 oadd (amap (oscale (cos90 k)) y) (amap (oscale (sin90 k)) x))
             (rot90 k (vmsk f)) (vuv f)).

(** change_unit (804-834) *)
Definition vf_change_unit (f : vfield) (a : axname) (new : unit_t) : res vfield :=
  match a with
  | AxX | AxY => let* g := grid_change_unit (vg f) a new in Ok (mkvf g (cx f) (cy f) (vmsk f) (vuv f))
  | AxValues => let* fact := conv (vuv f) new in
                Ok (mkvf (vg f) (amap (oscale fact) (cx f)) (amap (oscale fact) (cy f)) (vmsk f) new)
  | AxOther => Err ValueErr
  end.

(** crop (968-1005) *)
Definition vf_crop_to (f : vfield) (w : (nat * nat) * (nat * nat)) (g : grid) : vfield :=
  let '((x0, x1), (y0, y1)) := w in
  mkvf g (aslice x0 (x1 + 1) y0 (y1 + 1) (cx f)) (aslice x0 (x1 + 1) y0 (y1 + 1) (cy f))
         (aslice x0 (x1 + 1) y0 (y1 + 1) (vmsk f)) (vuv f).
Definition vf_crop (f : vfield) (ivx ivy : option (num * num)) : res vfield :=
  let* (w, g) := grid_crop (vg f) ivx ivy in Ok (vf_crop_to f w g).
Definition vf_crop_ind (f : vfield) (ivx ivy : option (Z * Z)) : res vfield :=
  let* (w, g) := grid_crop_ind (vg f) ivx ivy in Ok (vf_crop_to f w g).

(** extend (1066-1114) *)
Definition vf_extend (f : vfield) (nl nr nu nd : nat) : res vfield :=
  let* g := grid_extend (vg f) nl nr nu nd in
  let n := length (ax g) in let m := length (ay g) in
  Ok (mkvf g (ablit (afull n m (Some 0%num)) (cx f) nl nd) (ablit (afull n m (Some 0%num)) (cy f) nl nd)
             (ablit (afull n m true) (vmsk f) nl nd) (vuv f)).
