(** * VpropModel: properties of one vortex (vortex_properties.py 34-451): zones around a point, radius, centre, circulation and
    integrated properties, and their evolutions in time.  Numbers are exact.  The criteria (vorticity, residual vorticity...) are
    function parameters, as scipy.integrate.simps is written down for the uniform spacing the code uses. *)
From Verif Require Import Num Res ListLib SortLib Arr FieldModel ScalarFieldModel VectorFieldModel ProfileModel PointsModel TemporalModel.

(** ** scipy.ndimage.label with its default structuring element: two cells are in the same zone when a path of cells sharing
    a side joins them; label 0 is given to the cells that are not in a zone. *)
Definition cell := (nat * nat)%type.
Definition cell_eqb (c d : cell) : bool := (Nat.eqb (fst c) (fst d) && Nat.eqb (snd c) (snd d))%bool.
Definition sides (c d : cell) : bool :=
  ((Nat.eqb (fst c) (fst d) && (Nat.eqb (snd c) (S (snd d)) || Nat.eqb (snd d) (S (snd c)))) ||
   (Nat.eqb (snd c) (snd d) && (Nat.eqb (fst c) (S (fst d)) || Nat.eqb (fst d) (S (fst c)))))%bool.
Definition all_cells (n m : nat) : list cell := list_prod (seq 0 n) (seq 0 m).
Definition grow (all : list cell) (ok : cell -> bool) (z : list cell) : list cell :=
  filter (fun c => (ok c && (existsb (cell_eqb c) z || existsb (sides c) z))%bool) all.
Fixpoint grown (k : nat) (all : list cell) (ok : cell -> bool) (z : list cell) : list cell :=
  match k with 0 => z | S k => grow all ok (grown k all ok z) end.
(** the cells with the label of c, c being in a zone *)
Definition component (all : list cell) (ok : cell -> bool) (c : cell) : list cell :=
  grown (length all) all ok (filter (cell_eqb c) all).
(** labels == labels[c] (vortex_properties.py 82-90, 262-268): all the cells that are in no zone when c is in none *)
Definition same_label (all : list cell) (ok : cell -> bool) (c : cell) : list cell :=
  if ok c then component all ok c else filter (fun d => negb (ok d)) all.
(** values > x; comparisons with NaN are false *)
Definition above (a : arr onum) (x : onum) (c : cell) : bool :=
  match at_ a (fst c) (snd c), x with Some v, Some t => qltb t v | _, _ => false end.
(** numpy.max: NaN when there is one *)
Definition omax2 (a b : onum) : onum := match a, b with Some x, Some y => Some (qmax x y) | _, _ => None end.
Definition omax (l : list onum) : res onum := match l with [] => Err ValueErr | a :: t => Ok (fold_left omax2 t a) end.
Definition at_cell (a : arr onum) (c : cell) : onum := at_ a (fst c) (snd c).
Definition step1 (l : list num) : res num := match l with a :: b :: _ => Ok (b - a)%num | _ => Err IndexErr end.
Definition osums (l : list onum) : onum := fold_right oadd (Some 0%num) l.
Definition oabs (a : onum) : onum := option_map qabs a.
(** an index out of the array of the criterion raises; the criterion has the shape of the field otherwise *)
Definition in_arr (a : arr onum) (c : cell) : bool := (Nat.ltb (fst c) (d0 a) && Nat.ltb (snd c) (d1 a))%bool.

(** ** get_vortex_radius (34-110) *)
(** the two successive zones (80-90) *)
Definition vortex_zone (a : arr onum) (eps : num) (c : cell) : res (list cell) :=
  let all := all_cells (d0 a) (d1 a) in
  let* mx := omax (map (at_cell a) (same_label all (above a (omul (Some eps) (at_cell a c))) c)) in
  Ok (same_label all (above a (omul (Some eps) mx)) c).
(** center_of_mass(|values|, zone) (96-99), in indices: NaN when the weights sum to 0 *)
Definition mass_center (a : arr onum) (z : list cell) (coord : cell -> nat) : onum :=
  odiv (osums (map (fun c => omul (oabs (at_cell a c)) (Some (qn (coord c)))) z)) (osums (map (fun c => oabs (at_cell a c)) z)).
(** the radius and the centre; [rad] is the function area -> (area/pi)^.5 *)
Definition vortex_radius (crit : vfield -> res sfield) (rad : num -> num) (f : vfield) (x y eps : num) : res (num * (onum * onum)) :=
  let* vort := crit f in
  let* dx := step1 (ax (vg f)) in
  let* dy := step1 (ay (vg f)) in
  let* c := nearest_cell (vg f) x y in
  let a := values vort in
  raise IndexErr when (negb (in_arr a c)) ;;
  let* z := vortex_zone a eps c in
  let cx := oadd (Some (nths (ax (vg f)) 0)) (omul (mass_center a z fst) (Some dx)) in
  let cy := oadd (Some (nths (ay (vg f)) 0)) (omul (mass_center a z snd) (Some dy)) in
  Ok (rad (qn (length z) * dx * dy)%num, (cx, cy)).
(** the unit (101): the sum of the squares of two units has the sum of the factors, [root] is the power .5 *)
Definition radius_unit (root : num -> num) (f : vfield) : res unit_t :=
  raise UnitErr when (negb (dim_eqb (dim (ux (vg f))) (dim (uy (vg f))))) ;;
  Ok (mkunit (dim (ux (vg f))) (root (sc (ux (vg f)) * sc (ux (vg f)) + sc (uy (vg f)) * sc (uy (vg f)))%num)).

(** ** get_vortex_circulation (386-451).  unit_circ.asNumber() is 1 in the unum normal form: it is not modelled. *)
Definition shown_abs (f : sfield) : list onum :=
  flat_map (fun c => if at_ (msk f) (fst c) (snd c) then [] else [oabs (at_cell (values f) c)]) (all_cells (d0 (raw f)) (d1 (raw f))).
(** |v|/max > eps (422): 0/0 is NaN *)
Definition strong (a : arr onum) (mx : onum) (eps : num) (c : cell) : bool :=
  match odiv (oabs (at_cell a c)) mx with Some q => qltb eps q | None => false end.
Definition vortex_circulation (vorticity : vfield -> res sfield) (f : vfield) (x y eps : num) : res (onum * unit_t) :=
  let* c := nearest_cell (vg f) x y in
  let* dx := step1 (ax (vg f)) in
  let* dy := step1 (ay (vg f)) in
  let* vort := vorticity f in
  let a := values vort in
  let* mx := omax (shown_abs vort) in
  raise IndexErr when (negb (in_arr a c)) ;;
  if strong a mx eps c then
    let z := component (all_cells (d0 a) (d1 a)) (strong a mx eps) c in
    Ok (omul (omul (osums (map (at_cell a) z)) (Some dx)) (Some dy), unit_mul (unit_mul (uv vort) (ux (vg f))) (uy (vg f)))
  else Ok (Some 0%num, one_unit).

(** ** scipy.integrate.simps with a uniform spacing: for an even number of values, the mean of the two ways of ending with a trapeze
    (even='avg') *)
Fixpoint simpson (h : num) (l : list onum) : onum :=
  match l with
  | a :: (b :: ((c :: _) as t)) => oadd (oscale (h / qz 3)%num (oadd (oadd a (oscale (qz 4) b)) c)) (simpson h t)
  | _ => Some 0%num
  end.
Definition trapeze (h : num) (a b : onum) : onum := oscale (h / 2)%num (oadd a b).
Definition simps (h : num) (l : list onum) : onum :=
  if Nat.odd (length l) then simpson h l
  else match l with
       | [] => Some 0%num
       | a :: t =>
         let first := oadd (simpson h (removelast l)) (match rev l with z :: y :: _ => trapeze h y z | _ => Some 0%num end) in
         let last := oadd (match t with b :: _ => trapeze h a b | [] => Some 0%num end) (simpson h t) in
         oscale (qq 1 2) (oadd first last)
       end.
Definition simps2 (dx dy : num) (a : arr onum) : onum :=
  simps dx (map (fun i => simps dy (map (fun j => at_ a i j) (seq 0 (d1 a)))) (seq 0 (d0 a))).

(** ** get_vortex_property (185-309), size_crit not 'value'.  abs of a field (scalarfield.py 293-296) keeps its mask. *)
Definition vortex_property (size prop : vfield -> res sfield) (f : vfield) (x y lim : num) : res (onum * unit_t) :=
  let* s := size f in
  let* p := prop f in
  let a := amap oabs (values s) in
  let* c := nearest_cell (vg f) x y in
  let u := unit_mul (unit_mul (uv p) (ux (sg p))) (uy (sg p)) in
  raise IndexErr when (negb (in_arr (cx f) c)) ;;
  (* magnitude <= 0 (253): NaN where the field is masked *)
  raise ValueErr when (match at_ (cx f) (fst c) (snd c), at_ (cy f) (fst c) (snd c) with
                       | Some vx, Some vy => (negb (at_ (vmsk f) (fst c) (snd c)) && qeqb vx 0%num && qeqb vy 0%num)%bool | _, _ => false end) ;;
  raise IndexErr when (negb (in_arr a c)) ;;
  let all := all_cells (d0 a) (d1 a) in
  let first := above a (omul (at_cell a c) (Some lim)) in
  if negb (first c) then Ok (Some 0%num, u)
  else
    let* mx := omax (map (at_cell a) (component all first c)) in
    let z := same_label all (above a (omul mx (Some lim))) c in
    let kept := mkarr (d0 (values p)) (d1 (values p)) (fun i j => if existsb (cell_eqb (i, j)) z then at_ (values p) i j else Some 0%num) in
    let* dx := step1 (ax (vg f)) in
    let* dy := step1 (ay (vg f)) in
    Ok (simps2 dx dy kept, u).

(** ** evolutions in time *)
Definition field_at (t : tfield vfield) (x : num) : res vfield :=
  match filter (fun s => qeqb (fst s) x) (combine (tft t) (tff t)) with s :: _ => Ok (snd s) | [] => Err IndexErr end.
(** get_vortex_radius_time_evolution (113-182): a trajectory without values raises *)
Definition radius_evolution (crit : vfield -> res sfield) (rad : num -> num) (t : tfield vfield) (p : points) (eps : num) : res profile :=
  raise IndexErr when (Nat.ltb (length (pv p)) (length (xy p))) ;;
  let* rs := mapM (fun s => let* f := field_at t (snd s) in let* r := vortex_radius crit rad f (fst (fst s)) (snd (fst s)) eps in Ok (fst r)) (combine (xy p) (pv p)) in
  prof_new (pv p) (map Some rs) (Some (map (fun r => qeqb r 0%num) rs)) (tfu t) (ux (tfg t)).
(** get_vortex_property_time_evolution (312-383): the name unit is not bound when no time is common *)
Fixpoint property_loop (size prop : vfield -> res sfield) (lim : num) (p : points) (l : list (num * vfield)) : res (list (num * (onum * unit_t))) :=
  match l with
  | [] => Ok []
  | (x, f) :: r =>
    match filter (fun s => qeqb (snd s) x) (combine (xy p) (pv p)) with
    | [] => property_loop size prop lim p r
    | s :: _ =>
      let* v := vortex_property size prop f (fst (fst s)) (snd (fst s)) lim in
      let* w := property_loop size prop lim p r in Ok ((x, v) :: w)
    end
  end.
Definition property_evolution (size prop : vfield -> res sfield) (t : tfield vfield) (p : points) (lim : num) : res profile :=
  let* l := property_loop size prop lim p (combine (tft t) (tff t)) in
  match rev l with
  | [] => Err UnboundErr
  | (_, (_, u)) :: _ => prof_new (map fst l) (map (fun s => fst (snd s)) l) None (tfu t) u
  end.
