(** * FieldModel: units and the Field class (IMTreatment/core/field.py). *)
From Verif Require Import Num Res ListLib Arr.

(** ** Units (library unum; IMTreatment/utils/units.py).
    A unit is a vector of dimension exponents and a positive scale to the base units.
    [asUnit]/[asNumber] convert by the quotient of the scales and raise IncompatibleUnitsError
    when the dimensions differ. *)
Record unit_t : Type := mkunit { dim : list Z; sc : num }.
Definition dim_eqb (a b : list Z) : bool := if list_eq_dec Z.eq_dec a b then true else false.
Definition conv (old new : unit_t) : res num :=
  if dim_eqb (dim old) (dim new) then Ok (sc old / sc new)%num else Err UnitErr.
Fixpoint dim_add (a b : list Z) : list Z :=
  match a, b with
  | x :: a', y :: b' => (x + y)%Z :: dim_add a' b'
  | [], _ => b
  | _, [] => a
  end.
Definition unit_mul (a b : unit_t) : unit_t := mkunit (dim_add (dim a) (dim b)) (sc a * sc b)%num.

(** ** The Field: two axes and their units (field.py:49-131).
    The attribute xy_scale only matters for plotting and is not modelled. *)
Record grid : Type := mkgrid { ax : list num; ay : list num; ux : unit_t; uy : unit_t }.

(** ** get_indice_on_axe (field.py:155-219) *)
Inductive ikind := KBounds | KNearest | KDecimal | KOther.
Inductive ind_res := IPair (i j : nat) | IInd (i : nat) | IDec (d : num).

Definition axis_bounds (axe : list num) (v : num) : nat * nat :=
  let ind := searchsorted axe v in
  if qeqb (nths axe ind) v then (ind, ind) else (ind - 1, ind).

Definition indice_on_axis (axe : list num) (v : num) (kind : ikind) : res ind_res :=
  raise IndexErr when (match axe with [] => true | _ => false end) ;;
  raise ValueErr when (qltb v (nths axe 0) || qltb (last axe (qz 0)) v)%bool ;;
  let (i0, i1) := axis_bounds axe v in
  match kind with
  | KBounds => Ok (IPair i0 i1)
  | KNearest =>
    if Nat.eqb i0 i1 then Ok (IInd i0)
    else if qltb (qabs (nths axe i0 - v)%num) (qabs (nths axe i1 - v)%num) then Ok (IInd i0)
    else Ok (IInd i1)
  | KDecimal =>
    if Nat.eqb i0 i1 then Ok (IInd i0)
    else let v1 := nths axe i0 in
         let v2 := nths axe i1 in
         let delta := qabs (v2 - v1)%num in
         Ok (IDec (qn i0 * qabs (v - v2) / delta + qn i1 * qabs (v - v1) / delta)%num)
  | KOther => Err ValueErr
  end.

Definition get_indice_on_axe (g : grid) (direction : Z) (v : num) (kind : ikind) : res ind_res :=
  if (direction =? 1)%Z then indice_on_axis (ax g) v kind
  else if (direction =? 2)%Z then indice_on_axis (ay g) v kind
  else Err ValueErr.

(** ** get_points_around (field.py:221-290), ind=True.
    The comparison [x <= c + radius/sqrt(2)] is written without square root:
    x - c <= 0 or 2 (x-c)^2 <= radius^2, which is equivalent for radius > 0 in exact arithmetic. *)
Definition le_int (d radius : num) : bool := (qleb d 0 || qleb (2 * (d * d)) (radius * radius))%num%bool.
Definition zrange (a b : Z) : list Z := map (fun k => a + Z.of_nat k)%Z (seq 0 (Z.to_nat (b - a))).
Definition keep_around (cx cy radius : num) (p : Z * Z) : bool :=
  let x := qz (fst p) in let y := qz (snd p) in
  if (le_int (x - cx) radius && le_int (cx - x) radius && le_int (y - cy) radius && le_int (cy - y) radius)%num%bool
  then true
  else if (qeqb x cx && qeqb y cy)%bool then false
  else qleb ((x - cx) * (x - cx) + (y - cy) * (y - cy))%num (radius * radius)%num.
Definition points_around_ind (cx cy radius : num) : res (list (Z * Z)) :=
  raise ValueErr when (negb (qltb 0%num radius)) ;;
  let xs := zrange (qceil (cx - radius)%num) (qfloor (cx + radius)%num + 1) in
  let ys := zrange (qceil (cy - radius)%num) (qfloor (cy + radius)%num + 1) in
  (* meshgrid(...).flatten(): y is the outer loop *)
  Ok (filter (keep_around cx cy radius) (flat_map (fun y => map (fun x => (x, y)) xs) ys)).
(** ind=False (field.py:260-267): the center is turned into a decimal index and the radius is divided
    by the mean of the first steps of the axes. *)
Definition dec_of (r : ind_res) : num :=
  match r with IInd i => qn i | IDec d => d | IPair i _ => qn i end.
Definition points_around (g : grid) (cx cy radius : num) : res (list (Z * Z)) :=
  raise ValueErr when (negb (qltb 0%num radius)) ;;
  raise IndexErr when (Nat.ltb (length (ax g)) 2 || Nat.ltb (length (ay g)) 2)%bool ;;
  let dx := (nths (ax g) 1 - nths (ax g) 0)%num in
  let dy := (nths (ay g) 1 - nths (ay g) 0)%num in
  let delta := ((dx + dy) / 2)%num in
  let* ix := indice_on_axis (ax g) cx KDecimal in
  let* iy := indice_on_axis (ay g) cy KDecimal in
  points_around_ind (dec_of ix) (dec_of iy) (radius / delta)%num.

(** ** scale (field.py:292-365): result grid and the two reversal flags *)
Inductive sarg := SNone | SNum (s : num) | SUnum (s : num) (u : unit_t).
Definition sfact (a : sarg) : num := match a with SNone => 1%num | SNum s => s | SUnum s _ => s end.
Definition scale_axis (l : list num) (u : unit_t) (a : sarg) : list num * unit_t * bool :=
  match a with
  | SNone => (l, u, false)
  | SNum s => let l' := map (fun x => x * s)%num l in
              if qltb s 0%num then (rev l', u, true) else (l', u, false)
  | SUnum s w => let l' := map (fun x => x * s)%num l in
              if qltb s 0%num then (rev l', unit_mul u w, true) else (l', unit_mul u w, false)
  end.
Definition grid_scale (g : grid) (sx sy : sarg) : grid * bool * bool :=
  let '(x, u, rx) := scale_axis (ax g) (ux g) sx in
  let '(y, w, ry) := scale_axis (ay g) (uy g) sy in
  (mkgrid x y u w, rx, ry).

(** ** rotate (field.py:367-425). Angles are integers (degrees). *)
Definition rot_fix (l : list num) : list num :=
  if qltb (last l (qz 0)) (nths l 0) then map Qcopp l else l.
Definition quarter (angle : Z) : nat := Z.to_nat ((angle mod 360) / 90).
Definition grid_rotate (g : grid) (angle : Z) : res grid :=
  raise ValueErr when (negb (angle mod 90 =? 0)%Z) ;;
  let g1 :=
    match quarter angle with
    | 0 => g
    | 1 => mkgrid (rev (ay g)) (ax g) (uy g) (ux g)
    | 2 => mkgrid (rev (ax g)) (rev (ay g)) (ux g) (uy g)
    | _ => mkgrid (ay g) (rev (ax g)) (uy g) (ux g)
    end in
  raise IndexErr when (Nat.eqb (length (ax g1)) 0 || Nat.eqb (length (ay g1)) 0)%bool ;;
  Ok (mkgrid (rot_fix (ax g1)) (rot_fix (ay g1)) (ux g1) (uy g1)).

(** ** change_unit (field.py:427-458) *)
Inductive axname := AxX | AxY | AxValues | AxOther.
Definition grid_change_unit (g : grid) (a : axname) (new : unit_t) : res grid :=
  match a with
  | AxX => let* fact := conv (ux g) new in
           Ok (mkgrid (map (fun x => x * fact)%num (ax g)) (ay g) new (uy g))
  | AxY => let* fact := conv (uy g) new in
           Ok (mkgrid (ax g) (map (fun y => y * fact)%num (ay g)) (ux g) new)
  | _ => Err ValueErr
  end.

(** ** set_origin (field.py:460-476) *)
Definition shift_axis (l : list num) (o : option num) : list num :=
  match o with None => l | Some x => map (fun a => a - x)%num l end.
Definition grid_set_origin (g : grid) (x y : option num) : grid :=
  mkgrid (shift_axis (ax g) x) (shift_axis (ay g) y) (ux g) (uy g).

(** ** crop (field.py:478-576): the inclusive index window, in axis units ([ind=False]) *)
Definition bound_hi (r : ind_res) : nat := match r with IPair _ j => j | IInd i => i | IDec _ => 0 end.
Definition bound_lo (r : ind_res) : nat := match r with IPair i _ => i | IInd i => i | IDec _ => 0 end.
Definition crop_window (axe : list num) (iv : option (num * num)) : res (nat * nat) :=
  raise IndexErr when (match axe with [] => true | _ => false end) ;;
  let first := nths axe 0 in
  let lst := last axe (qz 0) in
  let '(a, b) := match iv with None => (first, lst) | Some p => p end in
  raise ValueErr when (qltb b a) ;;
  raise ValueErr when ((qltb a first && qltb b first) || (qltb lst a && qltb lst b))%bool ;;
  let* imin := (if qleb a first then Ok 0
                else let* r := indice_on_axis axe a KBounds in Ok (bound_hi r)) in
  let* imax := (if qleb lst b then Ok (length axe - 1)
                else let* r := indice_on_axis axe b KBounds in Ok (bound_lo r)) in
  Ok (imin, imax).
(** [ind=True]: index intervals, here integers (the code truncates floats with int()). *)
Definition crop_window_ind (axe : list num) (iv : option (Z * Z)) : res (nat * nat) :=
  let '(a, b) := match iv with None => (0%Z, Z.of_nat (length axe)) | Some p => p end in
  raise ValueErr when (b <? a)%Z ;;
  raise ValueErr when ((a <? 0)%Z || (b =? 0)%Z)%bool ;;
  Ok (Z.to_nat a, Z.to_nat b).
Definition grid_crop_to (g : grid) (w : (nat * nat) * (nat * nat)) : grid :=
  let '((x0, x1), (y0, y1)) := w in
  mkgrid (slice x0 (x1 + 1) (ax g)) (slice y0 (y1 + 1) (ay g)) (ux g) (uy g).
Definition grid_crop (g : grid) (ivx ivy : option (num * num)) : res ((nat * nat) * (nat * nat) * grid) :=
  let* wx := crop_window (ax g) ivx in
  let* wy := crop_window (ay g) ivy in
  Ok ((wx, wy), grid_crop_to g (wx, wy)).
Definition grid_crop_ind (g : grid) (ivx ivy : option (Z * Z)) : res ((nat * nat) * (nat * nat) * grid) :=
  let* wx := crop_window_ind (ax g) ivx in
  let* wy := crop_window_ind (ay g) ivy in
  Ok ((wx, wy), grid_crop_to g (wx, wy)).

(** ** extend (field.py:578-624) *)
Definition extend_axis (l : list num) (nlo nhi : nat) : res (list num) :=
  raise IndexErr when ((negb (Nat.eqb nlo 0) || negb (Nat.eqb nhi 0)) && Nat.ltb (length l) 2)%bool ;;
  let lo := if Nat.eqb nlo 0 then []
            else let d := (nths l 1 - nths l 0)%num in
                 arange (nths l 0 - d * qn nlo)%num (nths l 0) d in
  let hi := if Nat.eqb nhi 0 then []
            else let n := length l in
                 let d := (nths l (n - 1) - nths l (n - 2))%num in
                 arange (nths l (n - 1) + d)%num (nths l (n - 1) + d * qn (nhi + 1))%num d in
  Ok (lo ++ l ++ hi).
Definition grid_extend (g : grid) (nl nr nu nd : nat) : res grid :=
  let* x := extend_axis (ax g) nl nr in
  let* y := extend_axis (ay g) nd nu in
  Ok (mkgrid x y (ux g) (uy g)).
