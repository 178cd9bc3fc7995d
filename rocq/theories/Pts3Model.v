(** * Pts3Model: ordering of points on a line, evolution on a set of points of the values of temporal fields
    (IMTreatment/core/points.py), stream lines from oriented points (orientedpoints.py). *)
From Verif Require Import Num Res ListLib SortLib Arr FieldModel ScalarFieldModel ProfileModel PointsModel TemporalModel.

(** ** order_on_line (points.py:1254-1286).  [paths] stands for the list of line 1268: the depth-first orders of the graph
    of the two nearest neighbours (sklearn, networkx), one for each starting point. *)
Definition sqd (a b : num * num) : num := ((fst a - fst b) * (fst a - fst b) + (snd a - snd b) * (snd a - snd b))%num.
(** 1272-1275 *)
Definition path_cost (l : list (num * num)) (path : list nat) : num := qsum (steps sqd (gather (qz 0, qz 0) path l)).
(** 1269-1278: [best] is the index and the cost kept up to now, None before the first one (mindist is infinite) *)
Fixpoint shortest_from (l : list (num * num)) (best : option (nat * num)) (i : nat) (paths : list (list nat)) : option (nat * num) :=
  match paths with
  | [] => best
  | q :: r =>
    let c := path_cost l q in
    shortest_from l (match best with None => Some (i, c) | Some (_, m) => if qltb c m then Some (i, c) else best end) (S i) r
  end.
(** minidx is 0 before the loop *)
Definition shortest (l : list (num * num)) (paths : list (list nat)) : nat :=
  match shortest_from l None 0 paths with None => 0 | Some (i, _) => i end.
(** The state of the set on which the method is called, and the set returned (that is the same object in place).
    The search of two other neighbours (1264-1265) is refused by sklearn for less than three points. *)
Definition order_on_line (paths : list (list nat)) (p : points) (inplace : bool) : res (points * points) :=
  raise ValueErr when (Nat.ltb (length (xy p)) 3) ;;
  let r := set_xy p (gather (qz 0, qz 0) (nth (shortest (xy p) paths) paths []) (xy p)) in
  Ok (if inplace then r else p, r).

(** ** get_evolution_on_tsf (771-826).  [ci] is the interpolator of get_value inside a cell. *)
(** 814: TSF.fields[TSF.times == time][0] *)
Definition field_at (t : tfield sfield) (time : num) : res sfield :=
  match filter (fun z => qeqb (fst z) time) (combine (tft t) (tff t)) with
  | [] => Err IndexErr
  | z :: _ => Ok (snd z)
  end.
(** 796-807; no name of an axis is 'v' *)
Definition evol_axis (p : points) (a : option ptaxis) : res (list num * unit_t) :=
  match a with
  | None | Some PtV => raise ValueErr when (Nat.eqb (length (pv p)) 0) ;; Ok (pv p, ptv p)
  | Some PtX => Ok (map fst (xy p), ptx p)
  | Some PtY => Ok (map snd (xy p), pty p)
  | Some PtOther => Err ValueErr
  end.
(** 810-816: times[i] is out of range for points without values *)
Definition evol_value (ci : sfield -> nat -> nat -> num -> num -> onum) (p : points) (t : tfield sfield) (i : nat) (q : num * num) : res onum :=
  match nth_error (pv p) i with
  | None => Err IndexErr
  | Some time => let* f := field_at t time in get_value ci f (fst q) (snd q)
  end.
Definition evolution_on_tsf (ci : sfield -> nat -> nat -> num -> num -> onum) (p : points) (t : tfield sfield) (a : option ptaxis) : res profile :=
  match xy p with
  | [] => prof_new [] [] None one_unit one_unit
  | _ =>
    let* (x, u) := evol_axis p a in
    let* ys := mapM (fun z => evol_value ci p t (fst z) (snd z)) (combine (seq 0 (length (xy p))) (xy p)) in
    (* TSF.unit_values is the one of the first field; there is one, as a value has been found *)
    let* w := match tff t with [] => Err IndexErr | f :: _ => Ok (uv f) end in
    prof_new x ys (Some (map isnan ys)) u w
  end.

(** ** OrientedPoints.get_streamlines_from_orientations (orientedpoints.py:156-228).
    [lines] stands for field_treatment.get_streamlines on the vector field, from two points: one Points object, or a list of them. *)
Inductive found : Type := One (s : points) | Many (l : list points).
Inductive rev_arg : Type := RBool (b : bool) | RTuple (l : list bool).
Section From.
Context (lines : (num * num) -> (num * num) -> bool -> found).
(** 209-223, for a point and a direction; assigning xy forgets the times, whose number no longer fits *)
Definition from_direction (cx cy : num) (p d : num * num) (reverse : bool) : list points :=
  if (qeqb (fst d) (qz 0) && qeqb (snd d) (qz 0))%bool then []
  else
    let f := lines (fst p - fst d * cx, snd p - snd d * cy)%num (fst p + fst d * cx, snd p + snd d * cy)%num reverse in
    map (fun s => set_xy s (p :: xy s)) (match f with One s => [s] | Many l => l end).
Definition from_orientations (axe_x axe_y : list num) (o : opoints) (r : rev_arg) : res (list points) :=
  (* 183: the orientations of an empty set have one dimension only *)
  let* n := match ori o with [] => Err IndexErr | d :: _ => Ok (length d) end in
  let flags := match r with RBool b => repeat b n | RTuple l => l end in
  raise ValueErr when (negb (Nat.eqb (length flags) n)) ;;
  raise IndexErr when (Nat.ltb (length axe_x) 2) ;;
  let cx := ((nths axe_x 1 - nths axe_x 0) * (1 / qz 4))%num in
  let cy := ((nths axe_x 1 - nths axe_x 0) * (1 / qz 4))%num in (* 199: axe_x, not axe_y *)
  Ok (flat_map (fun z => flat_map (fun y => from_direction cx cy (fst z) (fst y) (snd y)) (combine (snd z) flags))
               (combine (xy (opt o)) (ori o))).
End From.
