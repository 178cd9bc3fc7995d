(** * Sf2Model: integrals, even spacing, zones and histogram of a scalar field (IMTreatment/core/scalarfield.py), and the check of the
    strings given as units (IMTreatment/utils/units.py). *)
From Verif Require Import Num Res ListLib SortLib Arr FieldModel ScalarFieldModel ProfileModel Prof2Model BlModel VpropModel.

(** ** integrate_over_line (1143-1172): along the profile at a position, over an interval, or over 'all' *)
Inductive line_pos := LAt (v : num) | LOver (a b : num) | LAll.
Definition take_profile ci (f : sfield) (d : pdir) (p : line_pos) : res profile :=
  match p with LAt v => profile_linear ci f d v | LOver a b => profile_interval f d a b | LAll => profile_all f d end.
(** numpy.trapz(y, x): NaN as soon as a value is; 0 for one point *)
Fixpoint otrapz (l : list (num * onum)) : onum :=
  match l with
  | (x0, y0) :: (((x1, y1) :: _) as r) => oadd (odiv (oscale (x1 - x0)%num (oadd y0 y1)) (Some 2%num)) (otrapz r)
  | _ => Some 0%num
  end.
(** the test 'direction == 1' (1168) is never true of 'x' and 'y': the unit is always the one of x *)
Definition integrate_line ci (f : sfield) (d : pdir) (p : line_pos) : res (onum * unit_t) :=
  let* q := take_profile ci f d p in
  raise GenericErr when (existsb (fun b => b) (pm q)) ;;
  Ok (otrapz (combine (px q) (yv q)), unit_mul (uv f) (ux (sg f))).

(** ** integrate_over_surface (1174-1212): an absent interval is (-inf, inf), which crops nothing *)
Definition integrate_over_surface (f : sfield) (ivx ivy : option (num * num)) : res (onum * unit_t) :=
  let* c := sf_crop f ivx ivy in
  let* s := integrate_surface c in
  Ok (s, unit_mul (unit_mul (uv c) (ux (sg c))) (uy (sg c))).

(** ** make_evenly_spaced (1931-1962), res > 0.  [interp] is scipy's interp2d on the field, evaluated on the new axes *)
(** numpy.linspace(a, b, n): n values, the last one being b when n > 1 *)
Definition linspace_n (a b : num) (n : nat) : list num :=
  match n with 0 => [] | 1 => [a] | S k => linspace a b k end.
Definition spaced_axis (l : list num) (r : num) : res (list num) :=
  raise ValueErr when (Nat.ltb (length l) 2) ;;
  let dx := (lmin (diffs l) / r)%num in
  Ok (linspace_n (nths l 0) (last l (qz 0)) (Z.to_nat (qfloor ((last l (qz 0) - nths l 0) / dx)%num))).
Definition make_evenly_spaced (interp : sfield -> num -> num -> onum) (f : sfield) (r : num) : res sfield :=
  let* nx := spaced_axis (ax (sg f)) r in
  let* ny := spaced_axis (ay (sg f)) r in
  let v := mkarr (length nx) (length ny) (fun i j => interp f (nths nx i) (nths ny j)) in
  sf_import nx ny v None (ux (sg f)) (uy (sg f)) (uv f).

(** ** get_zones_centers (617-738).  Called with a list (or with the default list), whose two numbers are changed in place (653-654):
    the second component is this list after the call. *)
Inductive zkind := ZExtremum | ZCenter | ZPonderated | ZOther.
Definition nudge (b : num * num) : num * num :=
  (fst b - qq 1 100000 * qabs (fst b), snd b + qq 1 100000 * qabs (snd b))%num.
(** min and max (408-414): of the values that are not masked *)
Definition shown_list (f : sfield) : list onum :=
  flat_map (fun c => if at_ (msk f) (fst c) (snd c) then [] else [at_cell (values f) c]) (all_cells (d0 (raw f)) (d1 (raw f))).
Definition sf_max (f : sfield) : res onum := omax (shown_list f).
Definition sf_min (f : sfield) : res onum := let* m := omax (map oneg (shown_list f)) in Ok (oneg m).
(** the bounds in absolute value (669-682): None when the result is None *)
Definition abs_bounds (f : sfield) (b : num * num) (rel : bool) : res (option (num * num)) :=
  raise ValueErr when (rel && qltb (fst b * snd b)%num 0%num)%bool ;;
  let* mn := sf_min f in
  let* mx := sf_max f in
  match mn, mx with
  | Some mn, Some mx =>
    if rel then
      let from := if qltb (qabs (snd b)) (qabs (fst b)) then mx else mn in
      Ok (Some (qabs (mx - mn) * fst b + from, qabs (mx - mn) * snd b + from)%num)
    else Ok (if (qltb mx (fst b) || qltb (snd b) mn)%bool then None else Some b)
  | _, _ => Ok (if rel then None else Some b) (* NaN shown: the bounds are NaN, or the comparisons are false; not reached by clean fields *)
  end.
Definition within (a : arr onum) (b : num * num) (c : cell) : bool :=
  match at_cell a c with Some v => (qleb (fst b) v && qleb v (snd b))%bool | None => false end.
(** the zones (700-704) numbered by their first cell in the order of the array *)
Definition label_zones (all : list cell) (ok : cell -> bool) : list (list cell) :=
  map (component all ok) (filter (fun c => (ok c && match component all ok c with d :: _ => cell_eqb d c | [] => false end)%bool) all).
(** ndimage.extrema (707-713): the place of the extremum of a zone; [pick] chooses between equal values *)
Definition best_cell (pick : list cell -> cell) (better : num -> num -> bool) (a : arr onum) (z : list cell) : cell :=
  pick (filter (fun c => forallb (fun d => match at_cell a c, at_cell a d with Some v, Some w => negb (better w v) | _, _ => true end) z) z).
(** the position of a fractional index (726-735): int(nan) raises *)
Definition index_pos (l : list num) (q : onum) : res num :=
  match q with
  | None => Err ValueErr
  | Some q =>
    let k := Z.to_nat (qfloor q) in
    if qeqb q (qn k) then (raise IndexErr when (Nat.leb (length l) k) ;; Ok (nths l k))
    else let* dx := step1 l in (raise IndexErr when (Nat.leb (length l) k) ;; Ok (nths l k + dx * (q - qn k))%num)
  end.
Definition mean_index (z : list cell) (coord : cell -> nat) : onum :=
  odiv (Some (qsum (map (fun c => qn (coord c)) z))) (Some (qn (length z))).
Definition zone_index pick (k : zkind) (b : num * num) (a : arr onum) (z : list cell) : res (onum * onum) :=
  match k with
  | ZExtremum =>
    let far := if qltb (qabs (fst b)) (qabs (snd b)) then snd b else fst b in
    let c := best_cell pick (if qltb far 0%num then qltb else fun v w => qltb w v) a z in
    Ok (Some (qn (fst c)), Some (qn (snd c)))
  | ZCenter => Ok (mean_index z fst, mean_index z snd)
  | ZPonderated => Ok (mass_center a z fst, mass_center a z snd)
  | ZOther => Err ValueErr
  end.
Definition zone_point pick k b (f : sfield) (z : list cell) : res (num * num) :=
  let* q := zone_index pick k b (values f) z in
  let* x := index_pos (ax (sg f)) (fst q) in
  let* y := index_pos (ay (sg f)) (snd q) in
  Ok (x, y).
Definition zones_in pick (f : sfield) (b : num * num) (k : zkind) : res (option (list (num * num))) :=
  let all := all_cells (d0 (raw f)) (d1 (raw f)) in
  match filter (within (values f) b) all with
  | [c] => Ok (Some [(nths (ax (sg f)) (fst c), nths (ay (sg f)) (snd c))])
  | _ =>
    let zones := label_zones all (fun c => (within (values f) b c && negb (at_ (msk f) (fst c) (snd c)))%bool) in
    raise ValueErr when (match k with ZOther => true | _ => false end) ;;
    let* pts := mapM (zone_point pick k b f) zones in
    Ok (match pts with [] => None | _ => Some pts end)
  end.
Definition zones_centers pick (f : sfield) (b : num * num) (rel : bool) (k : zkind) : res (option (list (num * num))) * (num * num) :=
  let b1 := nudge b in
  ( if qeqb (fst b1) (snd b1) then Ok None
    else raise ValueErr when (qltb (snd b1) (fst b1)) ;;
      let* ob := abs_bounds f b1 rel in
      match ob with None => Ok None | Some b2 => zones_in pick f b2 k end
  , b1 ).
(** successive calls without bounds: the default list (617) is shared *)
Fixpoint default_after (n : nat) : num * num := match n with 0 => (qq 3 4, 1%num) | S n => nudge (default_after n) end.

(** ** get_histogram (941-967), an integer number of bins *)
Definition hist_range (l : list onum) (range : option (num * num)) : res (num * num) :=
  let fix_eq := fun a b : num => if qeqb a b then (a - qq 1 2, b + qq 1 2)%num else (a, b) in
  match range with
  | Some (a, b) => raise ValueErr when (qltb b a) ;; Ok (fix_eq a b)
  | None =>
    raise ValueErr when (existsb isnan l) ;;
    match flat_map (fun o : onum => match o with Some v => [v] | None => [] end) l with
    | [] => Ok (0%num, 1%num)
    | vs => Ok (fix_eq (lmin vs) (lmax vs))
    end
  end.
Definition bin_index (a b : num) (n : nat) (v : num) : nat :=
  let k := Z.to_nat (qfloor ((v - a) / (b - a) * qn n)%num) in if Nat.eqb k n then n - 1 else k.
Definition kept_values (l : list onum) (a b : num) : list num :=
  flat_map (fun o : onum => match o with Some v => if (qleb a v && qleb v b)%bool then [v] else [] | None => [] end) l.
Definition bin_counts (a b : num) (n : nat) (vs : list num) : list num :=
  map (fun i => qn (length (filter (fun v => Nat.eqb (bin_index a b n v) i) vs))) (seq 0 n).
Fixpoint cumsum_from (s : onum) (l : list onum) : list onum :=
  match l with [] => [] | a :: r => oadd s a :: cumsum_from (oadd s a) r end.
Definition get_histogram (counts : unit_t) (f : sfield) (cum normalized : bool) (bins : option Z) (range : option (num * num)) : res profile :=
  let l := flatten (values f) in
  let n := match bins with None => 10%Z | Some n => n end in
  raise ValueErr when (n <? 1)%Z ;;
  let* (a, b) := hist_range l range in
  let k := Z.to_nat n in
  let edges := linspace a b k in
  let vs := kept_values l a b in
  let h := map Some (bin_counts a b k vs) in
  let h := if normalized then map (fun c => odiv c (Some ((b - a) / qn k * qn (length vs))%num)) h else h in
  let xs := map (fun i => nths edges i + (nths edges 0 + nths edges 1) / 2)%num (seq 0 k) in
  prof_new xs (if cum then cumsum_from (Some 0%num) h else h) None (uv f) counts.
