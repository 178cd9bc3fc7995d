(** * PointsModel: the Points, OrientedPoints and TemporalPoints classes (IMTreatment/core/points.py,
    orientedpoints.py, temporalpoints.py).  Coordinates and values are numbers: NaN coordinates are not
    modelled here.  Names are not modelled. *)
From Verif Require Import Num Res ListLib SortLib Arr FieldModel ScalarFieldModel ProfileModel.

(** points.py:37-66 *)
Record points : Type := mkpts { xy : list (num * num); pv : list num; ptx : unit_t; pty : unit_t; ptv : unit_t }.
Notation tout := (points * option exn)%type.
(** xy setter (166-177): the values are forgotten when their number no longer fits *)
Definition set_xy (p : points) (l : list (num * num)) : points :=
  mkpts l (if Nat.eqb (length l) (length (pv p)) then pv p else []) (ptx p) (pty p) (ptv p).
(** v setter (187-197) *)
Definition v_fits (l : list num) (n : nat) : bool := (Nat.eqb (length l) 0 || Nat.eqb (length l) n)%bool.
Definition set_v (p : points) (l : list num) : tout :=
  if v_fits l (length (xy p)) then (mkpts (xy p) l (ptx p) (pty p) (ptv p), None) else (p, Some ValueErr).
(** constructor (37-66) *)
Definition pts_new (l : list (num * num)) (v : list num) (u w z : unit_t) : res points :=
  if v_fits v (length l) then Ok (mkpts l v u w z) else Err ValueErr.

(** ** __add__ (79-145): the result and the second operand as it is left (its coordinates are multiplied in place) *)
Definition pts_plus (p q : points) : res points * points :=
  match xy p, xy q with
  | [], _ => (Ok q, q)
  | _, [] => (Ok p, q)
  | _, _ =>
    if negb (dim_eqb (dim (ptx p)) (dim (ptx q)) && dim_eqb (dim (pty p)) (dim (pty q))
             && dim_eqb (dim (ptv p)) (dim (ptv q))) then (Err ValueErr, q)
    else
      let fx := (sc (ptx p) / sc (ptx q))%num in
      let fy := (sc (pty p) / sc (pty q))%num in
      let fv := (sc (ptv p) / sc (ptv q))%num in
      let q' := mkpts (map (fun t => (fst t * fx, snd t * fy))%num (xy q)) (pv q) (ptx q) (pty q) (ptv q) in
      (pts_new (xy p ++ xy q') (pv p ++ map (fun z => z * fv)%num (pv q)) (ptx p) (pty p) (ptv p), q')
  end.

(** ** add (872-899): the point is stored before the missing value is noticed *)
Definition pts_add (p : points) (pt : num * num) (v : option num) : tout :=
  let l := xy p ++ [pt] in
  match v with
  | None => if Nat.eqb (length (pv p)) 0 then (mkpts l (pv p) (ptx p) (pty p) (ptv p), None)
            else (mkpts l (pv p) (ptx p) (pty p) (ptv p), Some ValueErr)
  | Some z => (mkpts l (pv p ++ [z]) (ptx p) (pty p) (ptv p), None)
  end.

(** ** np.delete with a list of indices, negative ones counting from the end *)
Definition norm_ind (n : nat) (i : Z) : option nat :=
  if ((0 <=? i) && (i <? Z.of_nat n))%Z%bool then Some (Z.to_nat i)
  else if ((i <? 0) && (- Z.of_nat n <=? i))%Z%bool then Some (Z.to_nat (i + Z.of_nat n))
  else None.
Definition np_delete {A} (inds : list Z) (l : list A) : res (list A) :=
  let* ks := mapM (fun i => match norm_ind (length l) i with Some k => Ok k | None => Err IndexErr end) inds in
  Ok (keep (map (fun k => negb (existsb (Nat.eqb k) ks)) (seq 0 (length l))) l).
(** remove (901-922): assigning xy forgets v, so that the test of line 921 fails *)
Definition pts_remove (p : points) (inds : list Z) : tout :=
  match np_delete inds (xy p) with
  | Err e => (p, Some e)
  | Ok l => let p1 := set_xy p l in
            if Nat.eqb (length (pv p1)) (length l + 1) then
              match np_delete inds (pv p) with Err e => (p1, Some e) | Ok v => set_v p1 v end
            else (p1, None)
  end.

(** ** change_unit (924-962) *)
Inductive ptaxis := PtX | PtY | PtV | PtOther.
Definition pts_change_unit (p : points) (a : ptaxis) (new : unit_t) : tout :=
  match a with
  | PtX => match conv (ptx p) new with
           | Err e => (p, Some e)
           | Ok f => (mkpts (map (fun t => (fst t * f, snd t)%num) (xy p)) (pv p) new (pty p) (ptv p), None) end
  | PtY => match conv (pty p) new with
           | Err e => (p, Some e)
           | Ok f => (mkpts (map (fun t => (fst t, snd t * f)%num) (xy p)) (pv p) (ptx p) new (ptv p), None) end
  | PtV => match conv (ptv p) new with
           | Err e => (p, Some e)
           | Ok f => (mkpts (xy p) (map (fun z => z * f)%num (pv p)) (ptx p) (pty p) new, None) end
  | PtOther => (p, Some ValueErr)
  end.
(** ** set_origin (964-983) *)
Definition oshift (o : option num) (a : num) : num := match o with None => a | Some x => (a - x)%num end.
Definition pts_set_origin (p : points) (x y : option num) : points :=
  mkpts (map (fun t => (oshift x (fst t), oshift y (snd t))) (xy p)) (pv p) (ptx p) (pty p) (ptv p).

(** ** crop (985-1035) *)
Definition out_zone (iv : option (num * num)) (a : num) : bool :=
  match iv with None => false | Some (lo, hi) => (qltb a lo || qltb hi a)%bool end.
Definition crop_mask (p : points) (ivx ivy ivv : option (num * num)) : list bool :=
  let m := map (fun t => (out_zone ivx (fst t) || out_zone ivy (snd t))%bool) (xy p) in
  if Nat.eqb (length (pv p)) 0 then m
  else map (fun t => (fst t || snd t)%bool) (combine m (map (out_zone ivv) (pv p))).
Definition apply_mask (p : points) (m : list bool) : points :=
  mkpts (keep (map negb m) (xy p))
        (if Nat.eqb (length (pv p)) 0 then pv p else keep (map negb m) (pv p)) (ptx p) (pty p) (ptv p).
(** aligned point sets only: numpy raises when v has another length than xy *)
Definition pts_crop (p : points) (ivx ivy ivv : option (num * num)) : points := apply_mask p (crop_mask p ivx ivy ivv).
(** ind=True: the rows intervv[0]:intervv[1] are kept (non negative bounds) *)
Definition pts_crop_ind (p : points) (a b : nat) : points :=
  apply_mask p (map (fun k => negb (Nat.leb a k && Nat.ltb k b)) (seq 0 (length (xy p)))).

(** ** cut (1037-1066): strict comparisons; ~mask is an error when the mask is still the float array *)
Definition strictly_in (iv : option (num * num)) (a : num) : bool :=
  match iv with None => true | Some (lo, hi) => (qltb lo a && qltb a hi)%bool end.
Definition pts_cut (p : points) (ivx ivy : option (num * num)) : res points :=
  match ivx, ivy with
  | None, None => Err TypeErr
  | _, _ =>
    let kept := map (fun t => negb (strictly_in ivx (fst t) && strictly_in ivy (snd t))) (xy p) in
    let p1 := set_xy p (keep kept (xy p)) in
    if Nat.eqb (length (pv p1)) 0 then Ok p1
    else match set_v p1 (keep kept (pv p1)) with (p2, None) => Ok p2 | (_, Some e) => Err e end
  end.

(** ** scale (1068-1119), numbers and Unum factors *)
Definition pts_scale (p : points) (sx sy sv : sarg) : points :=
  let un (u : unit_t) (a : sarg) := match a with SUnum _ w => unit_mul w u | _ => u end in
  mkpts (map (fun t => (fst t * sfact sx, snd t * sfact sy)%num) (xy p)) (map (fun z => z * sfact sv)%num (pv p))
        (un (ptx p) sx) (un (pty p) sy) (un (ptv p) sv).
(** ** rotate (1121-1142); c and s are the cosine and the sine of the angle *)
Definition pts_rotate (p : points) (c s : num) : points :=
  mkpts (map (fun t => (fst t * c - snd t * s, snd t * c + fst t * s)%num) (xy p)) (pv p) (ptx p) (pty p) (ptv p).
(** ** reverse (1182-1191): the coordinates are exchanged, the units are not *)
Definition pts_reverse (p : points) : points :=
  mkpts (map (fun t => (snd t, fst t)) (xy p)) (pv p) (ptx p) (pty p) (ptv p).
(** ** decompose (1193-1205) *)
Definition pts_decompose (p : points) : res (list points) :=
  if Nat.eqb (length (xy p)) 1 then Ok [p]
  else if negb (Nat.eqb (length (xy p)) (length (pv p))) then Err GenericErr
  else mapM (fun t => pts_new [fst t] [snd t] (ptx p) (pty p) (ptv p)) (combine (xy p) (pv p)).

(** ** sort (1207-1252).  np.argsort is not stable by default: it is a parameter [asort]. *)
Definition pts_sort (asort : list num -> list nat) (p : points) (a : ptaxis) : res points :=
  let* o := match a with
            | PtX => Ok (asort (map fst (xy p)))
            | PtY => Ok (asort (map snd (xy p)))
            | PtV => if Nat.eqb (length (pv p)) 0 then Err ValueErr else Ok (asort (pv p))
            | PtOther => Err ValueErr
            end in
  let p1 := set_xy p (gather (qz 0, qz 0) o (xy p)) in
  if Nat.eqb (length (pv p1)) (length (xy p1)) then
    match set_v p1 (gather (qz 0) o (pv p1)) with (p2, None) => Ok p2 | (_, Some e) => Err e end
  else Ok p1.

(** ** export_to_profile (1586-1622) *)
Definition pts_col (p : points) (a : ptaxis) : res (list num * unit_t) :=
  match a with PtX => Ok (map fst (xy p), ptx p) | PtY => Ok (map snd (xy p), pty p)
             | PtV => Ok (pv p, ptv p) | PtOther => Err ValueErr end.
Definition pts_to_profile (p : points) (a b : ptaxis) : res profile :=
  let* (x, u) := pts_col p a in
  let* (y, w) := pts_col p b in
  prof_new x (map Some y) None u w.

(** ** get_velocity (641-714), smooth=0, xaxis='time'.
    The factor unit_Vx.asNumber() of the quotient unit is 1.  [mids] pairs successive samples. *)
Fixpoint stride_from {A} (k skip : nat) (l : list A) : list A :=
  match l with
  | [] => []
  | x :: r => match skip with 0 => x :: stride_from k (k - 1) r | S s => stride_from k s r end
  end.
Definition stride {A} (k : nat) (l : list A) : list A := stride_from k 0 l.
Definition steps {A B} (f : A -> A -> B) (l : list A) : list B := map (fun t => f (fst t) (snd t)) (combine l (tl l)).
Definition pts_velocity (asort : list num -> list nat) (p : points) (incr : nat) : res (profile * profile) :=
  raise GenericErr when (Nat.eqb (length (pv p)) 0) ;;
  raise ValueErr when (Nat.eqb incr 0) ;; (* slice step cannot be zero *)
  let o := asort (pv p) in
  let times := stride incr (gather (qz 0) o (pv p)) in
  let pos := stride incr (gather (qz 0, qz 0) o (xy p)) in
  let dt := steps (fun a b => b - a)%num times in
  let vx := map (fun t => odiv (Some (fst t)) (Some (snd t))) (combine (steps (fun a b => fst b - fst a)%num pos) dt) in
  let vy := map (fun t => odiv (Some (fst t)) (Some (snd t))) (combine (steps (fun a b => snd b - snd a)%num pos) dt) in
  let mid := map (fun t => (fst t + snd t / 2)%num) (combine times dt) in
  let* a := prof_new mid vx None (ptv p) (unit_div (ptx p) (ptv p)) in
  let* b := prof_new mid vy None (ptv p) (unit_div (pty p) (ptv p)) in
  Ok (a, b).

(** ** get_evolution_on_sf (716-769).  The name Profile is bound by an import in the branch of line 737
    only, hence local to the function and unbound at line 767.  [getv] stands for SF.get_value. *)
Definition pts_evolution (getv : num -> num -> res onum) (p : points) (has_v : bool) : res profile :=
  match xy p with
  | [] => prof_new [] [] None (mkunit [] 1%num) (mkunit [] 1%num)
  | _ => let* ys := mapM (fun t => getv (fst t) (snd t)) (xy p) in Err UnboundErr
  end.

(** ** get_points_density2 (425-532), subres=None, raw=False *)
Definition linspace (a b : num) (n : nat) : list num :=
  map (fun i => a + qn i * ((b - a) / qn (n - 1)))%num (seq 0 n).
Definition linstep (a b : num) (n : nat) : onum := if Nat.ltb n 2 then None else Some ((b - a) / qn (n - 1))%num.
Fixpoint argmin_from (best : num) (bi i : nat) (l : list num) : nat :=
  match l with
  | [] => bi
  | x :: r => if qltb x best then argmin_from x i (S i) r else argmin_from best bi (S i) r
  end.
Definition argmin (l : list num) : nat := match l with [] => 0 | x :: r => argmin_from x 0 1 r end.
Definition nearest_node (axe : list num) (v : num) : nat := argmin (map (fun a => qabs (a - v))%num axe).
Definition qsum (l : list num) : num := fold_right Qcplus 0%num l.
Definition pts_density (p : points) (rx ry : nat) (ponderated : bool) : res sfield :=
  raise ValueErr when (Nat.eqb (length (xy p)) 0) ;;
  raise IndexErr when (ponderated && Nat.ltb (length (pv p)) (length (xy p)))%bool ;;
  let X := map fst (xy p) in let Y := map snd (xy p) in
  let axx := linspace (lmin X) (lmax X) rx in
  let axy := linspace (lmin Y) (lmax Y) ry in
  let area := omul (linstep (lmin X) (lmax X) rx) (linstep (lmin Y) (lmax Y) ry) in
  raise ValueErr when (Nat.eqb rx 0 || Nat.eqb ry 0)%bool ;; (* argmin of an empty sequence *)
  let w := if ponderated then pv p else repeat 1%num (length (xy p)) in
  let cell := fun i j => qsum (map (fun t => if (Nat.eqb (nearest_node axx (fst (fst t))) i && Nat.eqb (nearest_node axy (snd (fst t))) j)%bool
                                             then snd t else 0%num) (combine (xy p) w)) in
  let unv := unit_div (unit_div (if ponderated then ptv p else mkunit [] 1%num) (ptx p)) (pty p) in
  sf_import axx axy (mkarr rx ry (fun i j => odiv (Some (cell i j)) area)) None (ptx p) (pty p) unv.

(** ** Histories of in-place operations on a point set *)
Inductive top :=
| TAdd (pt : num * num) (v : option num) | TRemove (inds : list Z) | TCrop (ivx ivy ivv : option (num * num))
| TCropInd (a b : nat) | TSetV (l : list num) | TSetXY (l : list (num * num)) | TOrigin (x y : option num)
| TUnit (a : ptaxis) (u : unit_t) | TScale (sx sy sv : sarg) | TSort (a : ptaxis) | TRotate (c s : num).
Definition tstep (asort : list num -> list nat) (p : points) (o : top) : tout :=
  match o with
  | TAdd pt v => pts_add p pt v
  | TRemove i => pts_remove p i
  | TCrop a b c => (pts_crop p a b c, None)
  | TCropInd a b => (pts_crop_ind p a b, None)
  | TSetV l => set_v p l
  | TSetXY l => (set_xy p l, None)
  | TOrigin x y => (pts_set_origin p x y, None)
  | TUnit a u => pts_change_unit p a u
  | TScale a b c => (pts_scale p a b c, None)
  | TSort a => match pts_sort asort p a with Ok q => (q, None) | Err e => (p, Some e) end
  | TRotate c s => (pts_rotate p c s, None)
  end.

(** * OrientedPoints (orientedpoints.py): one list of directions per point *)
Notation orient := (list (num * num)).
Record opoints : Type := mkop { opt : points; ori : list orient }.
(** __iter__ (79-86): a new iterator over the points is created for each orientation *)
Definition op_iter (o : opoints) : list ((num * num) * option num * orient) :=
  flat_map (fun i => match nth_error (xy (opt o)) 0, nth_error (ori o) i with
                     | Some q, Some d => [((q, nth_error (pv (opt o)) 0), d)]
                     | _, _ => [] end) (seq 0 (length (xy (opt o)))).
(** orientations setter (108-119): one entry per point, unless there is no point *)
Definition op_set_ori (o : opoints) (l : list orient) : opoints * option exn :=
  if (Nat.eqb (length (xy (opt o))) 0 || Nat.eqb (length l) (length (xy (opt o))))%bool
  then (mkop (opt o) l, None) else (o, Some ValueErr).
(** add (237-255); np.append along axis 0 needs the same number of directions *)
Definition op_add (o : opoints) (pt : num * num) (d : orient) (v : option num) : opoints * option exn :=
  match pts_add (opt o) pt v with
  | (p, Some e) => (mkop p (ori o), Some e)
  | (p, None) =>
    match ori o with
    | [] => op_set_ori (mkop p (ori o)) [d]
    | d0 :: _ => if Nat.eqb (length d) (length d0) then op_set_ori (mkop p (ori o)) (ori o ++ [d])
                 else (mkop p (ori o), Some ValueErr)
    end
  end.
(** remove (257-267) *)
Definition op_remove (o : opoints) (inds : list Z) : opoints * option exn :=
  match pts_remove (opt o) inds with
  | (p, Some e) => (mkop p (ori o), Some e)
  | (p, None) => match np_delete inds (ori o) with
                 | Err e => (mkop p (ori o), Some e)
                 | Ok l => op_set_ori (mkop p (ori o)) l end
  end.
(** crop (269-318) *)
Definition op_crop (o : opoints) (ivx ivy ivv : option (num * num)) : opoints * option exn :=
  if Nat.eqb (length (xy (opt o))) 0 then (o, None)
  else op_set_ori (mkop (pts_crop (opt o) ivx ivy ivv) (ori o)) (keep (map negb (crop_mask (opt o) ivx ivy ivv)) (ori o)).
(** sort and cut are inherited from Points (1207-1252, 1037-1066): they know nothing of the orientations *)
Definition op_sort (asort : list num -> list nat) (o : opoints) (a : ptaxis) : res opoints :=
  let* p := pts_sort asort (opt o) a in Ok (mkop p (ori o)).
Definition op_cut (o : opoints) (ivx ivy : option (num * num)) : res opoints :=
  let* p := pts_cut (opt o) ivx ivy in Ok (mkop p (ori o)).

(** * TemporalPoints (temporalpoints.py).  [tarr] is True when point_sets has become a numpy array,
    which has no append method. *)
Record tpoints : Type := mktp { tsets : list points; tarr : bool; ttimes : list num; tunit : unit_t }.
Definition tp_empty (u : unit_t) : tpoints := mktp [] false [] u.
(** __sort_field_by_time (338-343) *)
Definition tp_dflt : points := mkpts [] [] (mkunit [] 1%num) (mkunit [] 1%num) (mkunit [] 1%num).
Definition tp_sort (asort : list num -> list nat) (t : tpoints) : tpoints :=
  if Nat.leb (length (tsets t)) 1 then t
  else let o := asort (ttimes t) in
       mktp (gather tp_dflt o (tsets t)) false (gather (qz 0) o (ttimes t)) (tunit t).
(** add_pts (187-226).  The time is multiplied by self.unit_times / unit_times (line 221).  Units of another
    dimension than time are not modelled (asNumber without argument does not check): [UnitErr] here. *)
Definition tp_add (asort : list num -> list nat) (t : tpoints) (p : points) (time : num) (u : unit_t) : tpoints * option exn :=
  match tsets t with
  | [] => if tarr t then (mktp (tsets t) (tarr t) [time] u, Some AttrErr)
          else (tp_sort asort (mktp [p] false [time] u), None)
  | _ =>
    if negb (dim_eqb (dim u) (dim (tunit t))) then (t, Some UnitErr)
    else
      let times := ttimes t ++ [(time * (sc (tunit t) / sc u))%num] in
      if tarr t then (mktp (tsets t) (tarr t) times (tunit t), Some AttrErr)
      else (tp_sort asort (mktp (tsets t ++ [p]) false times (tunit t)), None)
  end.
(** remove_pts (228-241): one index after the other; np.delete turns the list into an array *)
Fixpoint tp_remove (t : tpoints) (inds : list Z) : tpoints * option exn :=
  match inds with
  | [] => (t, None)
  | i :: r =>
    match np_delete [i] (ttimes t) with
    | Err e => (t, Some e)
    | Ok times =>
      match np_delete [i] (tsets t) with
      | Err e => (mktp (tsets t) (tarr t) times (tunit t), Some e)
      | Ok sets => tp_remove (mktp sets true times (tunit t)) r
      end
    end
  end.
(** crop (243-300), ind=False: the returned object and the original as it is left.
    The loop of line 296 runs over the point sets of the original. *)
Definition tp_window (times : list num) (t1 t2 : num) : res (nat * nat) :=
  raise IndexErr when (match times with [] => true | _ => false end) ;;
  let first := nths times 0 in let lst := last times (qz 0) in
  let* i1 := (if qltb t1 first then Ok 0 else if qltb lst t1 then Err ValueErr
              else match filter (fun i => qleb t1 (nths times i)) (seq 0 (length times)) with
                   | i :: _ => Ok i | [] => Err IndexErr end) in
  let* i2 := (if qltb lst t2 then Ok (length times - 1) else if qltb t2 first then Err ValueErr
              else match rev (filter (fun i => qleb (nths times i) t2) (seq 0 (length times))) with
                   | i :: _ => Ok i | [] => Err IndexErr end) in
  Ok (i1, i2).
Definition tp_crop (t : tpoints) (ivx ivy ivv ivt : option (num * num)) (inplace : bool) : res (tpoints * tpoints) :=
  let* c := (match ivt with
             | None => Ok t
             | Some (t1, t2) =>
               let* (i1, i2) := tp_window (ttimes t) t1 t2 in
               Ok (mktp (slice i1 (i2 + 1) (tsets t)) (tarr t) (slice i1 (i2 + 1) (ttimes t)) (tunit t))
             end) in
  let spatial (x : tpoints) := mktp (map (fun p => pts_crop p ivx ivy ivv) (tsets x)) (tarr x) (ttimes x) (tunit x) in
  if inplace then Ok (spatial c, spatial c) else Ok (c, spatial t).
