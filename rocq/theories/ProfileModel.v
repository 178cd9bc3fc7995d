(** * ProfileModel: the Profile class (IMTreatment/core/profile.py). *)
From Verif Require Import Num Res ListLib SortLib Arr FieldModel ScalarFieldModel.

(** profile.py:54-93.  x values are numbers, y values may be NaN ([None]).  The name is not modelled. *)
Record profile : Type := mkprof { px : list num; py : list onum; pm : list bool; pux : unit_t; puy : unit_t }.

(** NaN is written where the mask is True (y getter 283, mask setter 314) *)
Definition nan_at (m : list bool) (y : list onum) : list onum :=
  map (fun t : bool * onum => if fst t then None else snd t) (combine m y).
Definition aligned (p : profile) : bool := Nat.eqb (length (pm p)) (length (py p)).
(** the array returned by the y getter (281-284), when the mask has the right length *)
Definition yv (p : profile) : list onum := nan_at (pm p) (py p).

(** ** Construction (54-93).  [mask = None] stands for a boolean argument, which the code replaces by an
    all-False mask whatever its value (69-71). *)
Definition prof_new (x : list num) (y : list onum) (mask : option (list bool)) (u w : unit_t) : res profile :=
  let m := match mask with None => repeat false (length x) | Some m => m end in
  raise ValueErr when (negb (Nat.eqb (length x) (length y))) ;;
  (* mask[order]: an index out of the mask raises; a longer mask is silently cut *)
  raise IndexErr when (Nat.ltb (length m) (length x)) ;;
  let o := argsort x in
  let y1 := gather None o y in
  let m1 := gather false o m in
  let y2 := nan_at m1 y1 in
  let m2 := map (fun t => orb (fst t) (isnan (snd t))) (combine m1 y2) in
  Ok (mkprof (gather (qz 0) o x) (nan_at m2 y2) m2 u w).

(** ** State and exceptions: an operation returns the state reached and the exception, if one was raised *)
Notation pout := (profile * option exn)%type.
Definition thenp (r : pout) (k : profile -> pout) : pout :=
  match r with (p, None) => k p | (p, Some e) => (p, Some e) end.
(** y setter (286-295): no length check *)
Definition set_y (p : profile) (v : list onum) : pout :=
  (mkprof (px p) v (map isnan v) (pux p) (puy p), None).
(** x setter (263-275): the new x is stored before the length is checked *)
Definition set_x (p : profile) (v : list num) : pout :=
  let p1 := mkprof v (py p) (pm p) (pux p) (puy p) in
  if negb (Nat.eqb (length v) (length (py p))) then (p1, Some GenericErr)
  else if Nat.ltb 1 (length v) then
    let o := argsort v in
    let p2 := mkprof (gather (qz 0) o v) (gather None o (py p)) (pm p) (pux p) (puy p) in
    if Nat.ltb (length (pm p)) (length v) then (p2, Some IndexErr)
    else (mkprof (px p2) (py p2) (gather false o (pm p)) (pux p) (puy p), None)
  else (p1, None).
(** mask setter (306-314), array argument: stored before y[mask] = NaN, which raises on a wrong length *)
Definition set_pmask (p : profile) (m : list bool) : pout :=
  if Nat.eqb (length m) (length (py p)) then (mkprof (px p) (nan_at m (py p)) m (pux p) (puy p), None)
  else (mkprof (px p) (py p) m (pux p) (puy p), Some IndexErr).
Definition set_pmask_bool (p : profile) (b : bool) : pout :=
  if aligned p then set_pmask p (repeat b (length (py p))) else (p, Some IndexErr).

(** ** add_point (1324-1330) *)
Definition add_point (p : profile) (x : num) (y : onum) : pout :=
  if aligned p then
    let pos := searchsorted (px p) x in
    thenp (set_y p (insert_at pos y (yv p))) (fun p1 => set_x p1 (insert_at pos x (px p1)))
  else (p, Some IndexErr).
(** ** add_points (1332-1351).  Comparing incompatible units raises as well; both are ValueErr here. *)
Definition add_points (p q : profile) : pout :=
  let p0 := if Nat.eqb (length (px p)) 0 then mkprof (px p) (py p) (pm p) (pux q) (puy q) else p in
  if negb (unit_eqb (pux q) (pux p0) && unit_eqb (puy q) (puy p0)) then (p0, Some ValueErr)
  else if negb (aligned p0 && aligned q) then (p0, Some IndexErr)
  else
    let x := px p0 ++ px q in
    let y := yv p0 ++ yv q in
    let m := pm p0 ++ pm q in
    let o := argsort x in
    set_pmask (mkprof (gather (qz 0) o x) (gather None o y) (pm p0) (pux p0) (puy p0)) (gather false o m).
(** ** remove_point (1353-1370) *)
Definition remove_point (p : profile) (i : Z) : pout :=
  if (i <? 0)%Z then (p, Some ValueErr)
  else if aligned p then
    thenp (set_y p (delete_at (Z.to_nat i) (yv p))) (fun p1 => set_x p1 (delete_at (Z.to_nat i) (px p1)))
  else (p, Some IndexErr).

(** ** crop (1389-1478) *)
Definition lmin (l : list num) : num := fold_right qmin (nths l 0) l.
Definition lmax (l : list num) : num := fold_right qmax (nths l 0) l.
Definition oin (a b : num) (y : onum) : bool := match y with Some v => (qltb a v && qltb v b)%bool | None => false end.
(** the loop of 1436-1449: [ind2 = None] stands for -1 *)
Definition crop_step (x : list num) (a b : num) (s : nat * option nat) (i : nat) : nat * option nat :=
  let (i1, i2) := s in
  let c := nths x i in let d := nths x (i - 1) in
  if qeqb c a then (i, i2)
  else if qeqb c b then (i1, Some (i + 1))
  else if ((qltb a c && qltb d a) || (qltb c a && qltb a d))%bool then (i + 1, i2)
  else if ((qltb b c && qltb d b) || (qltb c b && qltb b d))%bool then (i1, Some i)
  else s.
Definition crop_inds (x : list num) (a b : num) : nat * nat :=
  let (i1, i2) := fold_left (crop_step x a b) (rev (seq 1 (length x - 1))) (0, None) in
  (i1, match i2 with Some k => k | None => length x - 1 end).
Definition crop_data (p : profile) (ivx ivy : option (num * num)) : res (list num * list onum * list bool) :=
  raise ValueErr when (match ivx with Some (a, b) => qleb b a | None => false end) ;;
  raise ValueErr when (match ivy with Some (a, b) => qleb b a | None => false end) ;;
  raise IndexErr when (negb (aligned p)) ;;
  let x := px p in let y := yv p in let m := pm p in
  let* (x1, y1, m1) :=
    (match ivx with
     | None => Ok (x, y, m)
     | Some (a, b) =>
       raise ValueErr when (Nat.eqb (length x) 0) ;;
       raise ValueErr when ((qltb a (lmin x) && qltb b (lmin x)) || (qltb (lmax x) a && qltb (lmax x) b))%bool ;;
       let (i1, i2) := crop_inds x a b in
       Ok (slice i1 i2 x, slice i1 i2 y, slice i1 i2 m)
     end) in
  match ivy with
  | None => Ok (x1, y1, m1)
  | Some (a, b) =>
    (* the filter is computed on the whole y (1457) and raises when x was already cut *)
    let filt := map (oin a b) y in
    raise IndexErr when (negb (Nat.eqb (length filt) (length x1))) ;;
    Ok (keep filt x1, keep filt y1, keep filt m1)
  end.
Definition crop_data_ind (p : profile) (a b : Z) : res (list num * list onum * list bool) :=
  raise ValueErr when (b <=? a)%Z ;;
  raise IndexErr when (negb (aligned p)) ;;
  let n := Z.of_nat (length (px p)) in
  raise ValueErr when ((a <? 0) || (b <? 0) || (n <? a) || (n <? b))%Z%bool ;;
  let i := Z.to_nat a in let j := Z.to_nat b in
  Ok (slice i j (px p), slice i j (yv p), slice i j (pm p)).
Definition prof_crop_with (p : profile) (d : res (list num * list onum * list bool)) : res profile :=
  let* (x, y, m) := d in prof_new x y (Some m) (pux p) (puy p).
(** inplace=True (1470-1474) *)
Definition crop_in_with (p : profile) (d : res (list num * list onum * list bool)) : pout :=
  match d with
  | Err e => (p, Some e)
  | Ok (x, y, m) => thenp (set_y p y) (fun p1 => thenp (set_x p1 x) (fun p2 => set_pmask p2 m))
  end.
Definition prof_crop (p : profile) (ivx ivy : option (num * num)) : res profile := prof_crop_with p (crop_data p ivx ivy).
Definition prof_crop_ind (p : profile) (a b : Z) : res profile := prof_crop_with p (crop_data_ind p a b).

(** ** scale (1480-1523), inplace=True; a Unum factor multiplies the unit *)
Definition scale_in (p : profile) (sx sy : sarg) : pout :=
  let p1 := match sx with SUnum _ u => mkprof (px p) (py p) (pm p) (unit_mul u (pux p)) (puy p) | _ => p end in
  let p2 := match sy with SUnum _ u => mkprof (px p1) (py p1) (pm p1) (pux p1) (unit_mul u (puy p1)) | _ => p1 end in
  thenp (if qeqb (sfact sx) 1%num then (p2, None) else set_x p2 (map (fun a => a * sfact sx)%num (px p2)))
        (fun p3 => if qeqb (sfact sy) 1%num then (p3, None)
                   else if aligned p3 then set_y p3 (map (oscale (sfact sy)) (yv p3)) else (p3, Some IndexErr)).
(** ** change_unit (1675-1706) *)
Definition prof_change_unit (p : profile) (a : axname) (new : unit_t) : pout :=
  match a with
  | AxX => match conv (pux p) new with
           | Err e => (p, Some e)
           | Ok f => thenp (set_x p (map (fun v => v * f)%num (px p)))
                           (fun q => (mkprof (px q) (py q) (pm q) new (puy q), None))
           end
  | AxY => match conv (puy p) new with
           | Err e => (p, Some e)
           | Ok f => if aligned p then
                       thenp (set_y p (map (oscale f) (yv p)))
                             (fun q => (mkprof (px q) (py q) (pm q) (pux q) new, None))
                     else (p, Some IndexErr)
           end
  | _ => (p, Some ValueErr)
  end.
(** ** remove_nans (1858-1872), inplace *)
Definition remove_nans (p : profile) : pout :=
  if negb (aligned p) then (p, Some IndexErr)
  else let mask := map isnan (yv p) in
       if existsb (fun b => b) mask then
         thenp (set_y p (keep (map negb mask) (yv p))) (fun q => set_x q (keep (map negb mask) (px q)))
       else (p, None).

(** ** Operation sequences *)
Inductive pop :=
| PAdd (x : num) (y : onum) | PAddAll (q : profile) | PRemove (i : Z) | PSetX (v : list num) | PSetY (v : list onum)
| PReplace (x : list num) (y : list onum) | PSetMask (m : list bool) | PSetMaskBool (b : bool)
| PCrop (ivx ivy : option (num * num)) | PCropInd (a b : Z) | PScale (sx sy : sarg) | PUnit (a : axname) (new : unit_t)
| PRemoveNans.
Definition pstep (p : profile) (o : pop) : pout :=
  match o with
  | PAdd x y => add_point p x y
  | PAddAll q => add_points p q
  | PRemove i => remove_point p i
  | PSetX v => set_x p v
  | PSetY v => set_y p v
  | PReplace x y => thenp (set_y p y) (fun p1 => set_x p1 x) (* p.y = y; p.x = x, the documented order (270) *)
  | PSetMask m => set_pmask p m
  | PSetMaskBool b => set_pmask_bool p b
  | PCrop ivx ivy => crop_in_with p (crop_data p ivx ivy)
  | PCropInd a b => crop_in_with p (crop_data_ind p a b)
  | PScale sx sy => scale_in p sx sy
  | PUnit a u => prof_change_unit p a u
  | PRemoveNans => remove_nans p
  end.
Definition prun (p : profile) (ops : list pop) : profile := fold_left (fun q o => fst (pstep q o)) ops p.

(** ** Operators.  They return the result and the operands as they are left. *)
(** __neg__ (95-97) *)
Definition prof_neg (p : profile) : res profile :=
  raise IndexErr when (negb (aligned p)) ;; prof_new (px p) (map oneg (yv p)) (Some (pm p)) (pux p) (puy p).
(** __add__ with a number (100-103) and with a profile (108-123) *)
Definition prof_add_num (p : profile) (c : num) : res profile :=
  raise IndexErr when (negb (aligned p)) ;;
  prof_new (px p) (map (fun y => oadd y (Some c)) (yv p)) (Some (pm p)) (pux p) (puy p).
Definition prof_add (p q : profile) : res profile :=
  raise ValueErr when (negb (dim_eqb (dim (pux p)) (dim (pux q)) && dim_eqb (dim (puy p)) (dim (puy q))))%bool ;;
  raise ValueErr when (negb (Nat.eqb (length (px p)) (length (px q)))) ;;
  raise ValueErr when (negb (list_eqb (px p) (px q))) ;;
  raise IndexErr when (negb (aligned p && aligned q)) ;;
  (* line 118: the factor is self.unit_y / otherone.unit_y *)
  let fact := (sc (puy p) / sc (puy q))%num in
  let y := map (fun t => oadd (fst t) (oscale fact (snd t))) (combine (yv p) (yv q)) in
  let m := map (fun t => orb (fst t) (snd t)) (combine (pm p) (pm q)) in
  prof_new (px p) y (Some m) (pux p) (puy p).
(** __mul__ by a number (136-138, 179): no mask argument *)
Definition prof_mul_num (p : profile) (c : num) : res profile :=
  raise IndexErr when (negb (aligned p)) ;; prof_new (px p) (map (oscale c) (yv p)) None (pux p) (puy p).
(** __truediv__ by a profile (196-208): zeros of the divisor are replaced by 1 in the divisor itself.
    The factor tmp_unit.asNumber() is 1 for the quotient unit. *)
Definition prof_div (p q : profile) : res (profile * profile) :=
  raise ValueErr when (negb (list_eqb (px p) (px q))) ;;
  raise IndexErr when (negb (aligned p && aligned q)) ;;
  let is0 := fun y : onum => match y with Some v => qeqb v 0%num | None => false end in
  let m := map (fun t => orb (fst t) (snd t)) (combine (pm p) (pm q)) in
  let q' := mkprof (px q) (map (fun y => if is0 y then Some 1%num else y) (yv q)) (pm q) (pux q) (puy q) in
  let ytmp := map (fun t => if is0 (snd t) then None else fst t) (combine (yv p) (yv q)) in
  let y := map (fun t => odiv (fst t) (snd t)) (combine ytmp (yv q')) in
  let* r := prof_new (px p) y (Some m) (pux p) (unit_div (puy p) (puy q)) in
  Ok (r, q').

(** ** Interpolation (539-602).  Masked values are NaN. *)
Definition oge (a : onum) (v : num) : bool := match a with Some x => qleb v x | None => false end.
Definition ogt (a : onum) (v : num) : bool := match a with Some x => qltb v x | None => false end.
Definition ole (a : onum) (v : num) : bool := match a with Some x => qleb x v | None => false end.
Definition olt (a : onum) (v : num) : bool := match a with Some x => qltb x v | None => false end.
Definition oeqv (a : onum) (v : num) : bool := match a with Some x => qeqb x v | None => false end.
Definition cross (vals : list onum) (v : num) (i : nat) : bool :=
  let a := nth i vals None in let b := nth (S i) vals None in
  ((oge a v && olt b v) || (ole a v && ogt b v))%bool.
Definition between (vals vals2 : list onum) (v : num) (i : nat) : onum :=
  match nth i vals None, nth (S i) vals None, nth i vals2 None, nth (S i) vals2 None with
  | Some a, Some b, Some a2, Some b2 =>
      Some ((a2 * qabs (b - v) + b2 * qabs (a - v)) / qabs (a - b))%num
  | _, _, _, _ => None
  end.
Definition interp_list (vals vals2 : list onum) (v : num) : list onum :=
  if existsb (fun a => oeqv a v) vals
  then keep (map (fun a => oeqv a v) vals) vals2
  else map (between vals vals2 v) (filter (cross vals v) (seq 0 (length vals - 1))).
Definition interp_x (p : profile) (v : num) : list onum := interp_list (map Some (px p)) (yv p) v.
Definition interp_y (p : profile) (v : num) : list onum := interp_list (yv p) (map Some (px p)) v.
(** get_interpolated_values with an array (523-535): the first result, or NaN *)
Definition interp_x_array (p : profile) (vs : list num) : list onum := map (fun v => hd None (interp_x p v)) vs.

(** ** get_integral (652-661): numpy.trapz on the unmasked points *)
Fixpoint trapz (l : list (num * num)) : num :=
  match l with
  | (x0, y0) :: (((x1, y1) :: _) as r) => ((x1 - x0) * (y0 + y1) / 2 + trapz r)%num
  | _ => 0%num
  end.
Definition valid_pts (p : profile) : list (num * num) :=
  flat_map (fun t => match t with (x, Some y, false) => [(x, y)] | _ => [] end) (combine (combine (px p) (yv p)) (pm p)).
(** NaN when an unmasked y is NaN (a mask can be lifted from a NaN) *)
Definition get_integral (p : profile) : onum :=
  if existsb (fun t => (isnan (fst t) && negb (snd t))%bool) (combine (yv p) (pm p)) then None
  else Some (trapz (valid_pts p)).

(** ** fill (1549-1617), inplace=False, crop=False; [FLinear] stands for kind 'linear' and 'slinear'.
    Unmasked points are assumed to be numbers (an unmasked NaN would spread through interp1d). *)
Inductive fkind := FValue | FLinear.
(** scipy interp1d, linear: _call_linear *)
Definition interp1d (xs ys : list num) (v : num) : num :=
  let k := Nat.min (Nat.max (searchsorted xs v) 1) (length xs - 1) in
  let x0 := nths xs (k - 1) in let x1 := nths xs k in
  let y0 := nths ys (k - 1) in let y1 := nths ys k in
  ((y1 - y0) / (x1 - x0) * (v - x0) + y0)%num.
Definition interp1d_fill (xs ys : list num) (fv : num) (v : num) : num :=
  if (qltb v (nths xs 0) || qltb (last xs (qz 0)) v)%bool then fv else interp1d xs ys v.
Fixpoint first_valid (m : list bool) : nat := match m with true :: r => S (first_valid r) | _ => 0 end.
Definition last_valid (m : list bool) : nat := length m - 1 - first_valid (rev m).
Definition prof_fill (p : profile) (kind : fkind) (fv : num) : res profile :=
  raise IndexErr when (negb (aligned p)) ;;
  if negb (existsb (fun b => b) (pm p)) then Ok p
  else
    raise GenericErr when (forallb (fun b => b) (pm p)) ;;
    match kind with
    | FValue =>
      (* line 1588: the unmasked points are overwritten, the masked ones stay NaN *)
      prof_new (px p) (map (fun t => if fst t : bool then snd t else Some fv) (combine (pm p) (yv p))) None (pux p) (puy p)
    | FLinear =>
      let v := valid_pts p in
      raise ValueErr when (Nat.ltb (length v) 2) ;;
      let xs := map fst v in let ys := map snd v in
      let y1 := map (fun t => if fst (fst t) : bool then Some (interp1d_fill xs ys fv (snd t)) else snd (fst t))
                    (combine (combine (pm p) (yv p)) (px p)) in
      let f := first_valid (pm p) in let l := last_valid (pm p) in
      let y2 := map (fun i => if Nat.ltb i f then nth f y1 None else if Nat.ltb l i then nth l y1 None else nth i y1 None)
                    (seq 0 (length y1)) in
      prof_new (px p) y2 None (pux p) (puy p)
    end.
