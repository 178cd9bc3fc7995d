(** * ScalarFieldModel: the ScalarField class (IMTreatment/core/scalarfield.py), float dtype. *)
From Verif Require Import Num Res ListLib Arr FieldModel.

(** NaN arithmetic: any NaN operand gives NaN. *)
Notation onum := (option num).
Definition lift2 (f : num -> num -> num) (a b : onum) : onum :=
  match a, b with Some x, Some y => Some (f x y) | _, _ => None end.
Definition oadd := lift2 Qcplus.
Definition omul := lift2 Qcmult.
Definition oscale (c : num) (a : onum) : onum := option_map (fun x => x * c)%num a.
Definition oneg (a : onum) : onum := option_map Qcopp a.
(** float division.  A zero divisor gives inf or nan in numpy; infinities have no value here and are
    represented by [None] too, but [div_isnan] says exactly when numpy's result is nan. *)
Definition odiv (a b : onum) : onum :=
  match a, b with Some x, Some y => if qeqb y 0%num then None else Some (x / y)%num | _, _ => None end.
Definition div_isnan (a b : onum) : bool :=
  match a, b with Some x, Some y => (qeqb x 0%num && qeqb y 0%num)%bool | _, _ => true end.
Definition isnan (a : onum) : bool := match a with None => true | Some _ => false end.

(** scalarfield.py:46-51: axes and units of the parent class, values, mask, unit of values. *)
Record sfield : Type := mksf { sg : grid; raw : arr onum; msk : arr bool; uv : unit_t }.

Definition shape_is {A} (a : arr A) (g : grid) : bool :=
  (Nat.eqb (d0 a) (length (ax g)) && Nat.eqb (d1 a) (length (ay g)))%bool.

(** values getter (319-325): masked cells are overwritten with NaN, in the stored array.
    [values f] is the returned array, [read_values] the state afterwards. *)
Definition values (f : sfield) : arr onum :=
  mkarr (d0 (raw f)) (d1 (raw f)) (fun i j => if at_ (msk f) i j then None else at_ (raw f) i j).
Definition read_values (f : sfield) : sfield := mksf (sg f) (values f) (msk f) (uv f).
(** values setter (328-340) *)
Definition set_values (f : sfield) (v : arr onum) : res sfield :=
  if shape_is v (sg f) then Ok (mksf (sg f) v (amap isnan v) (uv f)) else Err ValueErr.
(** mask setter (351-371), array argument and boolean argument *)
Definition set_mask (f : sfield) (m : arr bool) : res sfield :=
  if shape_is m (sg f) then Ok (mksf (sg f) (raw f) m (uv f)) else Err ValueErr.
Definition set_mask_bool (f : sfield) (b : bool) : res sfield :=
  set_mask f (afull (length (ax (sg f))) (length (ay (sg f))) b).

(** ** import_from_arrays (422-520): one-dimensional axes. *)
Definition deltas (l : list num) : list num := map (fun i => nths l (S i) - nths l i)%num (seq 0 (length l - 1)).
Definition uneven (l : list num) : bool :=
  existsb (fun d => qltb (d * qq 1 1000000) (d - nths (deltas l) 0))%num (deltas l).
Definition sf_import (x y : list num) (v : arr onum) (m : option (arr bool))
           (unx uny unv : unit_t) : res sfield :=
  let m0 := match m with None => afull (d0 v) (d1 v) false | Some a => a end in
  let m1 := amap2 orb m0 (amap isnan v) in
  (* delta_y[0] is evaluated first (488); delta_x[0] only when the y axis is even *)
  raise IndexErr when (Nat.ltb (length y) 2) ;;
  raise IndexErr when (negb (uneven y) && Nat.ltb (length x) 2)%bool ;;
  let tr := (Nat.eqb (length x) (d1 v) && Nat.eqb (length y) (d0 v) && negb (Nat.eqb (length x) (length y)))%bool in
  let v2 := if tr then atrans v else v in
  let m2 := if tr then atrans m1 else m1 in
  (* 503-508: the axes and the values are reversed; the mask is not *)
  let rx := qltb (last x (qz 0)) (nths x 0) in
  let ry := qltb (last y (qz 0)) (nths y 0) in
  let x3 := if rx then rev x else x in
  let v3 := if rx then aflip0 v2 else v2 in
  let y4 := if ry then rev y else y in
  let v4 := if ry then aflip1 v3 else v3 in
  Ok (mksf (mkgrid x3 y4 unx uny) v4 m2 unv).

(** ** __neg__ (73-78) *)
Definition sf_neg (f : sfield) : sfield :=
  let v := amap oneg (values f) in mksf (sg f) v (amap isnan v) (uv f).

(** ** __add__ (80-150) *)
Definition list_eqb (a b : list num) : bool := if list_eq_dec Qc_eq_dec a b then true else false.
Definition memq (v : num) (l : list num) : bool := existsb (qeqb v) l.
Definition where_in (a b : list num) : list nat := filter (fun i => memq (nths a i) b) (seq 0 (length a)).
Definition asel {A} (ix iy : list nat) (a : arr A) : arr A :=
  mkarr (length ix) (length iy) (fun i j => at_ a (nth i ix 0) (nth j iy 0)).
Definition sf_add (f h : sfield) : res sfield :=
  raise ValueErr when (negb (dim_eqb (dim (uv f)) (dim (uv h)) && dim_eqb (dim (ux (sg f))) (dim (ux (sg h)))
                             && dim_eqb (dim (uy (sg f))) (dim (uy (sg h)))))%bool ;;
  let* fact := conv (uv h) (uv f) in
  if (list_eqb (ax (sg f)) (ax (sg h)) && list_eqb (ay (sg f)) (ay (sg h)))%bool then
    let v := amap2 oadd (values f) (amap (oscale fact) (values h)) in
    Ok (mksf (sg f) v (amap2 orb (msk f) (msk h)) (uv f))
  else
    let ix := where_in (ax (sg f)) (ax (sg h)) in
    let iy := where_in (ay (sg f)) (ay (sg h)) in
    let jx := where_in (ax (sg h)) (ax (sg f)) in
    let jy := where_in (ay (sg h)) (ay (sg f)) in
    raise ValueErr when (match ix with [] => true | _ => false end || match iy with [] => true | _ => false end)%bool ;;
    raise ValueErr when (negb (Nat.eqb (length ix) (length jx) && Nat.eqb (length iy) (length jy)))%bool ;;
    let v := amap2 oadd (asel ix iy (values f)) (amap (oscale fact) (asel jx jy (values h))) in
    let m := amap2 orb (asel ix iy (msk f)) (asel jx jy (msk h)) in
    sf_import (map (fun i => nths (ax (sg f)) i) ix) (map (fun j => nths (ay (sg f)) j) iy)
              v (Some m) (ux (sg f)) (uy (sg f)) (uv f).
(** __sub__ (155-156): self + (-obj) *)
Definition sf_sub (f h : sfield) : res sfield := sf_add f (sf_neg h).

(** ** __truediv__ (161-202): by a number, by an array, by a scalar field *)
Definition sf_div_num (f : sfield) (c : num) : sfield :=
  mksf (sg f) (amap (fun a => odiv a (Some c)) (values f))
       (amap (fun a => div_isnan a (Some c)) (values f)) (uv f).
Definition sf_div_arr (f : sfield) (o : arr onum) : res sfield :=
  raise ValueErr when (negb (shape_is o (sg f))) ;;
  let m := amap2 (fun b z => orb b (match z with Some q => qeqb q 0%num | None => false end)) (msk f) o in
  let v := mkarr (d0 (raw f)) (d1 (raw f)) (fun i j =>
             if at_ m i j then at_ (values f) i j else odiv (at_ (values f) i j) (at_ o i j)) in
  Ok (mksf (sg f) v m (uv f)).
Definition unit_eqb (a b : unit_t) : bool := (dim_eqb (dim a) (dim b) && qeqb (sc a) (sc b))%bool.
Definition same_support (f h : sfield) : bool :=
  (list_eqb (ax (sg f)) (ax (sg h)) && list_eqb (ay (sg f)) (ay (sg h))
   && unit_eqb (ux (sg f)) (ux (sg h)) && unit_eqb (uy (sg f)) (uy (sg h)))%bool.
Definition unit_div (a b : unit_t) : unit_t := mkunit (dim_add (dim a) (map Z.opp (dim b))) (sc a / sc b)%num.
(* the numeric factor unit.asNumber() of the quotient unit is 1 in the unum normal form; it is not modelled *)
Definition sf_div (f h : sfield) : res sfield :=
  raise ValueErr when (negb (same_support f h)) ;;
  (* filt_nan = obj.values != 0: NaN != 0 is True *)
  let filt := amap (fun a => match a with Some q => negb (qeqb q 0%num) | None => true end) (values h) in
  let v := mkarr (d0 (raw f)) (d1 (raw f)) (fun i j =>
             if at_ filt i j then odiv (at_ (values f) i j) (at_ (values h) i j) else Some 0%num) in
  let m := amap2 orb (amap2 orb (msk f) (msk h)) (amap negb filt) in
  Ok (mksf (sg f) v m (unit_div (uv f) (uv h))).
(** __rtruediv__ (206-243): number / field and array / field *)
Definition sf_rdiv_num (c : num) (f : sfield) : sfield :=
  mksf (sg f) (amap (odiv (Some c)) (values f)) (amap (div_isnan (Some c)) (values f))
       (unit_div (mkunit [] 1%num) (uv f)).
Definition sf_rdiv_arr (o : arr onum) (f : sfield) : res sfield :=
  raise ValueErr when (negb (shape_is o (sg f))) ;;
  let m := amap2 (fun b z => orb b (match z with Some q => qeqb q 0%num | None => false end)) (msk f) o in
  let v := mkarr (d0 (raw f)) (d1 (raw f)) (fun i j =>
             if at_ m i j then at_ (values f) i j else odiv (at_ o i j) (at_ (values f) i j)) in
  Ok (mksf (sg f) v m (uv f)).
(** ** __mul__ (245-290): by a number and by a scalar field *)
Definition sf_mul_num (f : sfield) (c : num) : sfield :=
  mksf (sg f) (amap (oscale c) (values f)) (msk f) (uv f).
Definition sf_mul (f h : sfield) : res sfield :=
  raise ValueErr when (negb (same_support f h)) ;;
  Ok (mksf (sg f) (amap2 omul (values f) (values h)) (amap2 orb (msk f) (msk h)) (unit_mul (uv f) (uv h))).

(** ** __iter__ (303-311) and export_to_scatter (1220-1256) with an extra mask *)
Definition sf_iter (f : sfield) : list ((nat * nat) * (num * num) * onum) :=
  map (fun p => (p, (nths (ax (sg f)) (fst p), nths (ay (sg f)) (snd p)), at_ (values f) (fst p) (snd p)))
      (filter (fun p => negb (at_ (msk f) (fst p) (snd p)))
              (aidx (length (ax (sg f))) (length (ay (sg f))))).
Definition export_to_scatter (f : sfield) (extra : option (arr bool)) : res (list (num * num) * list onum) :=
  let e := match extra with None => afull (length (ax (sg f))) (length (ay (sg f))) false | Some m => m end in
  raise ValueErr when (negb (shape_is e (sg f))) ;;
  let m := amap2 orb e (msk f) in
  let kept := filter (fun t => negb (at_ m (fst (fst (fst t))) (snd (fst (fst t))))) (sf_iter f) in
  Ok (map (fun t => snd (fst t)) kept, map snd kept).

(** ** get_value (540-615).  Inside a cell (neither coordinate on a grid line) the code calls
    scipy's LinearNDInterpolator on the four corners: an oracle here. *)
Definition interp1 (p1 p2 p v1 v2 : num) : num :=
  ((v2 * qabs (p1 - p) + v1 * qabs (p2 - p)) / qabs (p1 - p2))%num.
Definition ointerp1 (p1 p2 p : num) (v1 v2 : onum) : onum :=
  match v1, v2 with Some a, Some b => Some (interp1 p1 p2 p a b) | _, _ => None end.
Definition get_value (cellinterp : sfield -> nat -> nat -> num -> num -> onum)
           (f : sfield) (x y : num) : res onum :=
  let X := ax (sg f) in let Y := ay (sg f) in
  raise IndexErr when (match X with [] => true | _ => false end || match Y with [] => true | _ => false end)%bool ;;
  raise ValueErr when (qltb (last X (qz 0)) x || qltb (last Y (qz 0)) y
                       || qltb x (nths X 0) || qltb y (nths Y 0))%bool ;;
  let (i0, i1) := axis_bounds X x in
  let (j0, j1) := axis_bounds Y y in
  if (at_ (msk f) i0 j0 || at_ (msk f) i1 j1)%bool then Ok None
  else if (Nat.eqb i0 i1 && Nat.eqb j0 j1)%bool then Ok (at_ (values f) i0 j0)
  else if Nat.eqb i0 i1 then
    Ok (ointerp1 (nths Y j0) (nths Y j1) y (at_ (values f) i0 j0) (at_ (values f) i0 j1))
  else if Nat.eqb j0 j1 then
    Ok (ointerp1 (nths X i0) (nths X i1) x (at_ (values f) i0 j0) (at_ (values f) i1 j0))
  else Ok (cellinterp f i0 j0 x y).
(** get_value with ind=True (565-566 and checks 548-552) *)
Definition get_value_ind (f : sfield) (i j : Z) : res onum :=
  raise ValueErr when ((Z.of_nat (length (ax (sg f))) - 1 <? i) || (Z.of_nat (length (ay (sg f))) - 1 <? j)
                       || (i <? 0) || (j <? 0))%Z%bool ;;
  Ok (at_ (values f) (Z.to_nat i) (Z.to_nat j)).

(** ** integrate_over_surface (1174-1212), after cropping: None when a value is masked *)
Definition osum (l : list onum) : onum := fold_right oadd (Some 0%num) l.
Definition integrate_surface (f : sfield) : res onum :=
  raise GenericErr when (existsb (fun b => b) (flatten (msk f))) ;;
  raise IndexErr when (Nat.eqb (length (ax (sg f))) 0 || Nat.eqb (length (ay (sg f))) 0)%bool ;;
  let lx := qabs (last (ax (sg f)) (qz 0) - nths (ax (sg f)) 0)%num in
  let ly := qabs (last (ay (sg f)) (qz 0) - nths (ay (sg f)) 0)%num in
  Ok (option_map (fun s => s * lx * ly / qn (length (ax (sg f))) / qn (length (ay (sg f))))%num
                 (osum (flatten (values f)))).

(** ** scale (1258-1298) *)
Definition sf_scale (f : sfield) (sx sy sv : sarg) : sfield :=
  let '(g, rx, ry) := grid_scale (sg f) sx sy in
  (* tmp_f.values *= fact: getter, product, setter (mask := isnan); no scale: values untouched *)
  let '(v1, m1, u1) :=
    match sv with
    | SNone => (raw f, msk f, uv f)
    | SNum s => let v := amap (oscale s) (values f) in (v, amap isnan v, uv f)
    | SUnum s w => let v := amap (oscale s) (values f) in (v, amap isnan v, unit_mul (uv f) w)
    end in
  let cur := values (mksf g v1 m1 u1) in
  match rx, ry with
  | true, true => let v := aflip1 (aflip0 cur) in mksf g v (amap isnan v) u1
  | true, false => let v := aflip0 cur in mksf g v (amap isnan v) u1
  | false, true => let v := aflip1 cur in mksf g v (amap isnan v) u1
  | false, false => mksf g v1 m1 u1
  end.

(** ** rotate (1300-1341) *)
Definition sf_rotate (f : sfield) (angle : Z) : res sfield :=
  raise ValueErr when (negb (angle mod 90 =? 0)%Z) ;;
  let* g := grid_rotate (sg f) (angle mod 360) in
  Ok (mksf g (rot90 (quarter angle) (values f)) (rot90 (quarter angle) (msk f)) (uv f)).

(** ** change_unit (1351-1381) *)
Definition sf_change_unit (f : sfield) (a : axname) (new : unit_t) : res sfield :=
  match a with
  | AxX | AxY => let* g := grid_change_unit (sg f) a new in Ok (mksf g (raw f) (msk f) (uv f))
  | AxValues => let* fact := conv (uv f) new in
                let v := amap (oscale fact) (values f) in
                Ok (mksf (sg f) v (amap isnan v) new)
  | AxOther => Err ValueErr
  end.

Definition sf_set_origin (f : sfield) (x y : option num) : sfield :=
  mksf (grid_set_origin (sg f) x y) (raw f) (msk f) (uv f).

(** ** crop (1383-1418) *)
Definition sf_crop_to (f : sfield) (w : (nat * nat) * (nat * nat)) (g : grid) : sfield :=
  let '((x0, x1), (y0, y1)) := w in
  mksf g (aslice x0 (x1 + 1) y0 (y1 + 1) (values f)) (aslice x0 (x1 + 1) y0 (y1 + 1) (msk f)) (uv f).
Definition sf_crop (f : sfield) (ivx ivy : option (num * num)) : res sfield :=
  let* (w, g) := grid_crop (sg f) ivx ivy in Ok (sf_crop_to f w g).
Definition sf_crop_ind (f : sfield) (ivx ivy : option (Z * Z)) : res sfield :=
  let* (w, g) := grid_crop_ind (sg f) ivx ivy in Ok (sf_crop_to f w g).

(** ** extend (1420-1495), ind=True.  inplace=False refers to the unbound name new_field (1493). *)
Definition sf_extend (f : sfield) (nl nr nu nd : nat) (value : option num) (inplace : bool) : res sfield :=
  let* g := grid_extend (sg f) nl nr nu nd in
  let n := length (ax g) in let m := length (ay g) in
  let nv := match value with None => afull n m (Some 0%num) | Some c => afull n m (Some c) end in
  let nm := match value with None => afull n m true | Some _ => afull n m false end in
  let nv' := ablit nv (values f) nl nd in
  let nm' := ablit nm (msk f) nl nd in
  if inplace then sf_import (ax g) (ay g) nv' (Some nm') (ux g) (uy g) (uv f)
  else Err NameErr.

(** ** crop_masked_border (1727-1787).
    The result is [None] when nothing is masked (the code returns None, line 1744). *)
Definition any_masked (f : sfield) : bool := existsb (fun b => b) (flatten (msk f)).
Definition row_ok (f : sfield) (i : nat) : bool := existsb (fun j => negb (at_ (msk f) i j)) (seq 0 (d1 (msk f))).
Definition col_ok (f : sfield) (j : nat) : bool := existsb (fun i => negb (at_ (msk f) i j)) (seq 0 (d0 (msk f))).
Definition first_ok (p : nat -> bool) (n : nat) : option nat := find p (seq 0 n).
Definition last_ok (p : nat -> bool) (n : nat) : option nat := find p (rev (seq 0 n)).
Definition zpair (a b : nat) : option (Z * Z) := Some (Z.of_nat a, Z.of_nat b).
Definition soft_crop (f : sfield) : res sfield :=
  match first_ok (row_ok f) (d0 (msk f)), last_ok (row_ok f) (d0 (msk f)),
        first_ok (col_ok f) (d1 (msk f)), last_ok (col_ok f) (d1 (msk f)) with
  | Some x0, Some x1, Some y0, Some y1 => sf_crop_ind f (zpair x0 x1) (zpair y0 y1)
  | _, _, _, _ => Err IndexErr
  end.
Definition count_true (l : list bool) : nat := length (filter (fun b => b) l).
Definition bd_row (f : sfield) (i : nat) : nat := count_true (map (fun j => at_ (msk f) i j) (seq 0 (d1 (msk f)))).
Definition bd_col (f : sfield) (j : nat) : nat := count_true (map (fun i => at_ (msk f) i j) (seq 0 (d0 (msk f)))).
(** np.argmax of four numbers: the first maximum *)
Definition argmax4 (a b c d : nat) : nat :=
  if (Nat.leb b a && Nat.leb c a && Nat.leb d a)%bool then 0
  else if (Nat.leb c b && Nat.leb d b)%bool then 1
  else if Nat.leb d c then 2 else 3.
Definition hard_step (f : sfield) : res sfield :=
  let n := length (ax (sg f)) in let m := length (ay (sg f)) in
  match argmax4 (bd_row f 0) (bd_row f (d0 (msk f) - 1)) (bd_col f 0) (bd_col f (d1 (msk f) - 1)) with
  | 0 => sf_crop_ind f (Some (1%Z, Z.of_nat n)) None
  | 1 => sf_crop_ind f (Some (0%Z, Z.of_nat n - 2)%Z) None
  | 2 => sf_crop_ind f None (Some (1%Z, Z.of_nat m))
  | _ => sf_crop_ind f None (Some (0%Z, Z.of_nat m - 2)%Z)
  end.
Fixpoint hard_loop (fuel : nat) (f : sfield) : res sfield :=
  if any_masked f then
    match fuel with
    | 0 => Err OutOfFuel
    | S fuel' => let* f' := hard_step f in hard_loop fuel' f'
    end
  else Ok f.
Definition crop_masked_border (f : sfield) (hard : bool) : res (option sfield) :=
  if any_masked f then
    if hard then
      let* f1 := soft_crop f in
      let* f2 := hard_loop (length (ax (sg f1)) + length (ay (sg f1))) f1 in Ok (Some f2)
    else let* f1 := soft_crop f in Ok (Some f1)
  else Ok None.

(** ** reduce_spatial_resolution (1964-2065), inplace=False *)
Definition block_idx (n k : nat) (i : nat) : list nat := seq (i * k) k.
Definition unmasked_block (f : sfield) (k i j : nat) : list onum :=
  flat_map (fun a => flat_map (fun b => if at_ (msk f) a b then [] else [at_ (values f) a b])
                              (block_idx 0 k j)) (block_idx 0 k i).
Definition omean (l : list onum) : onum :=
  match l with [] => None | _ => option_map (fun s => s / qn (length l))%num (osum l) end.
Definition reduce_axis (l : list num) (k : nat) : list num :=
  map (fun i => (nths l (i * k + (k / 2 - 1)) + nths l (i * k + k / 2)) / 2)%num (seq 0 (length l / k)).
Definition sf_reduce (f : sfield) (fact : Z) : res sfield :=
  raise ValueErr when (fact <? 1)%Z ;;
  if (fact =? 1)%Z then Ok f
  else
    let k := Z.to_nat fact in
    let nx := length (ax (sg f)) / k in let ny := length (ay (sg f)) / k in
    (* odd factors: slice() of floats (2036) raises TypeError as soon as one block exists;
       without any block the import of empty axes raises IndexError *)
    raise TypeErr when (negb (Z.even fact) && negb (Nat.eqb (nx * ny) 0))%bool ;;
    raise IndexErr when (negb (Z.even fact)) ;;
    let v := mkarr nx ny (fun i j => match unmasked_block f k i j with
                                     | [] => Some 0%num | l => omean l end) in
    let m := mkarr nx ny (fun i j => match unmasked_block f k i j with [] => true | _ => false end) in
    sf_import (reduce_axis (ax (sg f)) k) (reduce_axis (ay (sg f)) k) v (Some m)
              (ux (sg f)) (uy (sg f)) (uv f).

(** ** The values/mask interface as a state machine.
    An assignment that raises leaves the object as it was: both setters check before assigning. *)
Inductive sop := OpValues (v : arr onum) | OpMask (m : arr bool) | OpMaskBool (b : bool) | OpRead.
Definition sstep (f : sfield) (o : sop) : sfield :=
  match (match o with
         | OpValues v => set_values f v
         | OpMask m => set_mask f m
         | OpMaskBool b => set_mask_bool f b
         | OpRead => Ok (read_values f)
         end) with Ok f' => f' | Err _ => f end.
