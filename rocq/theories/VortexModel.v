(** * VortexModel: vortices, walls and systems of vortices (vortex_creation/vortex_creation.py).
    The velocities use the real numbers of the standard library (square root, arctangent, sine, cosine, exponential)
    instead of floating point numbers.  A division by zero (a null radius, viscosity or time given to a constructor)
    raises or gives an infinity in the code; it is not modelled. *)
From Coq Require Import Reals Lra List ZArith Lia.
From Verif Require Import Res.
From Verif Require PointsModel.
Import ListNotations.
#[local] Open Scope R_scope.

(** the kinds of vortices with what their get_vector uses; [LambChaplygin] is given the Bessel functions of order 0, 1
    and 2 and the constant k (464-466) *)
Inductive vkind :=
| Solid (omega : R)                          (* 126-160 *)
| Free (gamma : R)                           (* 163-202 *)
| Burger (alpha ksi nu : R)                  (* 205-264 *)
| Hill (U rv : R)                            (* 267-310 *)
| LambOseen (ksi t nu : R)                   (* 313-365 *)
| Rankine (circ rv : R)                      (* 368-418 *)
| LambChaplygin (U rv k : R) (j0 j1 j2 : R -> R)   (* 421-478 *)
| Perso (circ nu alpha ratio : R).           (* 499-570 *)
(** Vortex (35-48): [rot] is rot_dir, 1 or -1; [vid] is the id *)
Record vortex := mkv { vx0 : R; vy0 : R; movable : bool; rot : Z; vid : Z; kind : vkind }.

(** the constructors take the sign of the strength as rotation direction and store its absolute value (140-144, 179-183,
    234-238, 339-343, 394-398); PersoVortex (532-550) and LambChaplyginVortex keep rot_dir = 1; HillVortex takes it *)
Definition sign_dir (a : R) : Z := if Rlt_dec a 0 then (-1)%Z else 1%Z.
Definition new_solid (x y omega : R) (m : bool) : vortex := mkv x y m (sign_dir omega) 0 (Solid (Rabs omega)).
Definition new_free (x y gamma : R) (m : bool) : vortex := mkv x y m (sign_dir gamma) 0 (Free (Rabs gamma)).
Definition new_burger (x y alpha ksi nu : R) (m : bool) : vortex := mkv x y m (sign_dir ksi) 0 (Burger alpha (Rabs ksi) nu).
Definition new_hill (x y U rv : R) (d : Z) (m : bool) : vortex := mkv x y m d 0 (Hill U rv).
Definition new_oseen (x y ksi t nu : R) (m : bool) : vortex := mkv x y m (sign_dir ksi) 0 (LambOseen (Rabs ksi) t nu).
Definition new_rankine (x y circ rv : R) (m : bool) : vortex := mkv x y m (sign_dir circ) 0 (Rankine (Rabs circ) rv).
Definition new_chaplygin (x y U rv k : R) (j0 j1 j2 : R -> R) (m : bool) : vortex := mkv x y m 1 0 (LambChaplygin U rv k j0 j1 j2).
(** the branch where circ is given (533-550) *)
Definition new_perso (x y radius circ ratio nu : R) (m : bool) : vortex :=
  mkv x y m 1 0 (Perso circ nu (16 * ln 2 * nu / (radius * radius)) ratio).

(** _get_theta (83-99) *)
Definition get_theta (x0 x y0 y : R) : R :=
  let dx := x - x0 in let dy := y - y0 in
  if Req_EM_T dx 0 then (if Req_EM_T dy 0 then 0 else if Rlt_dec 0 dy then PI / 2 else - (PI / 2))
  else if Rlt_dec 0 dx then atan (dy / dx) else atan (dy / dx) - PI.
(** _get_r (102-104) *)
Definition get_r (x0 x y0 y : R) : R := sqrt ((x - x0) * (x - x0) + (y - y0) * (y - y0)).
(** _cyl_to_cart (106-112) *)
Definition cyl_to_cart (theta vr vphi : R) : R * R := (vr * cos theta - vphi * sin theta, vr * sin theta + vphi * cos theta).

(** the cylindrical velocity (radial, tangential) of each get_vector *)
Definition cyl (k : vkind) (d r theta : R) : R * R :=
  match k with
  | Solid omega => (0, r * omega * d)
  | Free gamma => (0, if Req_EM_T r 0 then 0 else gamma / (2 * PI * r) * d)
  | Burger alpha ksi nu => (- 1 / 2 * alpha * r, if Req_EM_T r 0 then 0 else ksi / (2 * PI) / r * (1 - exp (- alpha / (4 * nu) * (r * r))) * d)
  | Hill U rv => (- 3 / 4 * U * r * (1 - (r * r) / (rv * rv)) * 2 * sin theta * cos theta,
                  3 / 2 * U * (sin theta * sin theta) * r * (1 - 2 * (r * r) / (rv * rv)) * d)
  | LambOseen ksi t nu => (0, if Req_EM_T r 0 then 0 else ksi / (2 * PI * r) * (1 - exp (- (r * r) / (4 * nu * t))) * d)
  | Rankine circ rv => (0, if Rle_dec r rv then circ * r / (2 * PI * (rv * rv)) * d else circ / (2 * PI * r) * d)
  | LambChaplygin U rv k j0 j1 j2 =>
    if Rlt_dec r rv then
      (- 2 * U / (r * k * j0 (k * rv)) * j1 (k * r) * cos theta, 2 * U / j0 (k * rv) * sin theta * ((j2 (k * r) - j0 (k * r)) / - 2))
    else (- U * (r - rv * rv / r) * cos theta, U * (1 + rv * rv / (r * r)) * sin theta)
  | Perso circ nu alpha ratio =>
    let vphi := if Req_EM_T r 0 then 0 else circ / (2 * PI) / r * (1 - exp (- alpha / (4 * nu) * (r * r))) * d in
    (- Rabs vphi * ratio, vphi)
  end.
(** get_vector of a vortex (146-160, 185-202, 246-264, 294-310, 347-365, 401-418, 454-478, 552-570) *)
Definition v_vector (v : vortex) (x y : R) : R * R :=
  let r := get_r (vx0 v) x (vy0 v) y in
  let theta := get_theta (vx0 v) x (vy0 v) y in
  let (vr, vphi) := cyl (kind v) (IZR (rot v)) r theta in
  cyl_to_cart theta vr vphi.

(** Wall (624-665): a vertical wall (constant x) or a horizontal one (constant y) *)
Inductive wall := WallX (p : R) | WallY (p : R).
Definition get_symmetry (w : wall) (p : R * R) : R * R :=
  match w with WallX a => (a + (a - fst p), snd p) | WallY a => (fst p, a + (a - snd p)) end.
(** symetrize (117-123), made movable and moved (931-941) *)
Definition v_image (w : wall) (v : vortex) : vortex :=
  let p := get_symmetry w (vx0 v, vy0 v) in mkv (fst p) (snd p) true (rot v * -1) (vid v) (kind v).

(** VortexSystem (668-684).  A custom field is a function and its id; the same object is not added twice. *)
Record vsys := mks { vorts : list vortex; images : list vortex; nmb_vortex : Z; walls : list wall;
                     cfields : list ((R -> R -> R * R) * Z); to_refresh : bool; curr_id : Z; curr_cf : Z }.
Definition s_new : vsys := mks [] [] 0 [] [] false 0 0.
Definition set_vid (v : vortex) (i : Z) : vortex := mkv (vx0 v) (vy0 v) (movable v) (rot v) i (kind v).
(** add_vortex (692-708) *)
Definition s_add (s : vsys) (v : vortex) : vsys :=
  mks (vorts s ++ [set_vid v (curr_id s)]) (images s) (nmb_vortex s + 1) (walls s) (cfields s) true (curr_id s + 1) (curr_cf s).
(** add_wall (710-722) *)
Definition s_wall (s : vsys) (w : wall) : vsys :=
  mks (vorts s) (images s) (nmb_vortex s) (walls s ++ [w]) (cfields s) true (curr_id s) (curr_cf s).
(** add_custom_field (724-737) *)
Definition s_field (s : vsys) (f : R -> R -> R * R) : vsys :=
  mks (vorts s) (images s) (nmb_vortex s) (walls s) (cfields s ++ [(f, curr_cf s)]) (to_refresh s) (curr_id s) (curr_cf s + 1).
(** the loops of remove_vortex (751-765): from the last element to the first one, so that popping an element does not
    move those still to visit *)
Definition drop_id (i : Z) (l : list vortex) : list vortex :=
  flat_map (fun v => if Z.eqb (vid v) i then [] else if Z.ltb i (vid v) then [set_vid v (vid v - 1)] else [v]) l.
(** remove_vortex (739-766): the number of vortices is not updated *)
Definition s_remove (s : vsys) (ind : Z) : vsys * option exn :=
  let n := length (vorts s) in
  let ind := if (ind <? 0)%Z then (Z.of_nat n + ind)%Z else ind in
  match PointsModel.norm_ind n ind with
  | None => (s, Some IndexErr)
  | Some k =>
    match nth_error (vorts s) k with
    | None => (s, Some IndexErr)
    | Some v => (mks (drop_id (vid v) (vorts s)) (drop_id (vid v) (images s)) (nmb_vortex s) (walls s) (cfields s) (to_refresh s) (curr_id s - 1) (curr_cf s), None)
    end
  end.
(** refresh_imaginary_vortex (926-942) *)
Definition make_images (ws : list wall) (vs : list vortex) : list vortex :=
  fold_left (fun im w => (im ++ map (v_image w) im) ++ map (v_image w) vs) ws [].
Definition s_refresh (s : vsys) : vsys :=
  mks (vorts s) (make_images (walls s) (vorts s)) (nmb_vortex s) (walls s) (cfields s) false (curr_id s) (curr_cf s).
Definition s_fresh (s : vsys) : vsys := if to_refresh s then s_refresh s else s.

Definition vadd (p q : R * R) : R * R := (fst p + fst q, snd p + snd q).
(** the ids given to get_vector: 'all', 'none' or a list *)
Inductive idsel := IAll | INone | IList (l : list Z).
Definition sel_ids (sel : idsel) (n : Z) : list Z :=
  match sel with IAll => map Z.of_nat (seq 0 (Z.to_nat n)) | INone => [] | IList l => l end.
Definition mem (i : Z) (l : list Z) : bool := existsb (Z.eqb i) l.
(** get_vector (815-869): the vector and the system as it is left *)
Definition s_vector (s : vsys) (x y : R) (vsel csel : idsel) : (R * R) * vsys :=
  let ids := sel_ids vsel (curr_id s) in
  let cfs := sel_ids csel (curr_cf s) in
  let s := s_fresh s in
  let add_v acc v := if mem (vid v) ids then vadd acc (v_vector v x y) else acc in
  let a := fold_left add_v (vorts s) (0, 0) in
  let b := fold_left add_v (images s) a in
  (fold_left (fun acc c => if mem (snd c) cfs then vadd acc (fst c x y) else acc) (cfields s) b, s).
(** get_compounded_vector (871-924).  In the summed mode each call refreshes if necessary, so that the system is fresh
    after the first one; without any vortex or custom field nothing is called. *)
Definition s_compound (s : vsys) (x y : R) : list (R * R) * list Z * list (R * R) * list Z :=
  let ids := sel_ids IAll (curr_id s) in
  let cfs := sel_ids IAll (curr_cf s) in
  (map (fun i => fst (s_vector s x y (IList [i]) INone)) ids, ids,
   map (fun i => fst (s_vector s x y INone (IList [i]))) cfs, cfs).
(** detailed=True (898-911): nothing is refreshed *)
Definition s_compound_detailed (s : vsys) (x y : R) : list (R * R) * list Z * list (R * R) * list Z :=
  (map (fun v => v_vector v x y) (vorts s ++ images s), map vid (vorts s ++ images s),
   map (fun c => fst c x y) (cfields s), map snd (cfields s)).
(** get_vector_field (944-989) at one point of the grid: the fields of the vortices, images and custom fields are added
    one after the other.  The units (a custom field needs the unit m/s) and the axes are not modelled. *)
Definition s_field_at (s : vsys) (x y : R) : R * R :=
  let s := s_fresh s in
  let a := fold_left (fun acc v => vadd acc (v_vector v x y)) (vorts s) (0, 0) in
  let b := fold_left (fun acc v => vadd acc (v_vector v x y)) (images s) a in
  fold_left (fun acc c => vadd acc (fst c x y)) (cfields s) b.

(** get_evolution (991-1026): each movable vortex moves with the velocity at its centre; a new system is returned (the
    first call of get_vector may also refresh the images of the old one) *)
Definition v_move (s : vsys) (dt : R) (v : vortex) : vortex :=
  if movable v then
    let (vx, vy) := fst (s_vector s (vx0 v) (vy0 v) IAll IAll) in
    mkv (vx0 v + dt * vx) (vy0 v + dt * vy) (movable v) (rot v) (vid v) (kind v)
  else v.
Definition s_evolve (s : vsys) (dt : R) : res vsys :=
  if Rle_dec dt 0 then Err ValueErr
  else Ok (s_refresh (mks (map (v_move s dt) (vorts s)) (images s) (nmb_vortex s) (walls s) (cfields s) (to_refresh s) (curr_id s) (curr_cf s))).
(** get_vortex_evolution (1050-1068): the positions of the vortices at each time *)
Fixpoint s_times (s : vsys) (dt time : R) (n : nat) : res (list (R * list (R * R))) :=
  match n with
  | O => Ok []
  | S n' => let* s' := s_evolve s dt in
            let* l := s_times s' dt (time + dt) n' in
            Ok ((time + dt, map (fun v => (vx0 v, vy0 v)) (vorts s')) :: l)
  end.
Definition s_trajectories (s : vsys) (dt : R) (n : nat) : res (list (R * list (R * R))) :=
  let* l := s_times s dt 0 n in Ok ((0, map (fun v => (vx0 v, vy0 v)) (vorts s)) :: l).
(** get_velocity_map (1070-1097) over a list of points: the vortex is moved to the point (it must be movable), added,
    the velocity is read there, and the last vortex is removed *)
Fixpoint s_map (s : vsys) (v : vortex) (ps : list (R * R)) : list (R * R) * vsys :=
  match ps with
  | [] => ([], s)
  | (x, y) :: r =>
    let s1 := s_add s (mkv x y (movable v) (rot v) (vid v) (kind v)) in
    let (V, s2) := s_vector s1 x y IAll IAll in
    let (l, s3) := s_map (fst (s_remove s2 (-1))) v r in (V :: l, s3)
  end.
Definition s_velocity_map (s : vsys) (v : vortex) (ps : list (R * R)) : res (list (R * R)) :=
  raise GenericErr when (negb (movable v) && negb (Nat.eqb (length ps) 0))%bool ;; Ok (fst (s_map s v ps)).

(** a history of a system; a failing call changes nothing *)
Inductive vop := VAdd (v : vortex) | VRemove (i : Z) | VWall (w : wall) | VField (f : R -> R -> R * R) | VVector (x y : R) (a b : idsel) | VEvolve (dt : R).
Definition vstep (s : vsys) (o : vop) : vsys :=
  match o with
  | VAdd v => s_add s v | VRemove i => fst (s_remove s i) | VWall w => s_wall s w | VField f => s_field s f
  | VVector x y a b => snd (s_vector s x y a b)
  | VEvolve dt => match s_evolve s dt with Ok s' => s' | Err _ => s end
  end.
