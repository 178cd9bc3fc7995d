(** * CritModel: sets of critical points in time, their trajectories and their topological simplification
    (IMTreatment/vortex_detection/vortex_detection.py, classes CritPoints and TopoPoints). *)
From Verif Require Import Num Res ListLib SortLib Arr FieldModel ScalarFieldModel ProfileModel PointsModel.

(** the five kinds, in the order of CritPoints.iter (581-583) *)
Inductive kind := Foc | FocC | NodeI | NodeO | Sadd.
Definition kinds : list kind := [Foc; FocC; NodeI; NodeO; Sadd].
Definition kind_eqb (a b : kind) : bool :=
  match a, b with Foc, Foc | FocC, FocC | NodeI, NodeI | NodeO, NodeO | Sadd, Sadd => true | _, _ => false end.
Definition updk {A} (f : kind -> A) (k : kind) (v : A) : kind -> A := fun k' => if kind_eqb k' k then v else f k'.

(** trajectories of a kind: not computed, a python list, or a numpy array of point sets *)
Inductive trajs := TNone | TList (l : list points) | TArr (l : list points).
(** 448-467.  [ceps] is current_epsilon; an infinite threshold is [Some None].  Colours are not modelled. *)
Record crit : Type := mkcrit
  { ctimes : list num; cpts : kind -> list points; ctraj : kind -> trajs; ceps : option (option num);
    cux : unit_t; cuy : unit_t; cut : unit_t }.
Notation cout := (crit * option exn)%type.
Definition no_unit : unit_t := mkunit [] 1%num.
Definition crit_new (u : unit_t) : crit := mkcrit [] (fun _ => []) (fun _ => TNone) None no_unit no_unit u.
Definition set_times (c : crit) (l : list num) := mkcrit l (cpts c) (ctraj c) (ceps c) (cux c) (cuy c) (cut c).
Definition set_pts (c : crit) (f : kind -> list points) := mkcrit (ctimes c) f (ctraj c) (ceps c) (cux c) (cuy c) (cut c).
Definition set_traj (c : crit) (f : kind -> trajs) := mkcrit (ctimes c) (cpts c) f (ceps c) (cux c) (cuy c) (cut c).
Definition set_eps (c : crit) (e : option (option num)) := mkcrit (ctimes c) (cpts c) (ctraj c) e (cux c) (cuy c) (cut c).
Definition set_uxy (c : crit) (u w : unit_t) := mkcrit (ctimes c) (cpts c) (ctraj c) (ceps c) u w (cut c).

(** one action on every kind, in order, stopping at the first exception *)
Fixpoint each (ks : list kind) (f : crit -> kind -> cout) (c : crit) : cout :=
  match ks with
  | [] => (c, None)
  | k :: r => match f c k with (c1, None) => each r f c1 | o => o end
  end.

(** ** _sort_by_time (1572-1579), reached with one point set per time only *)
Definition crit_sort (asort : list num -> list nat) (c : crit) : crit :=
  let o := asort (ctimes c) in
  mkcrit (gather (qz 0) o (ctimes c)) (fun k => gather tp_dflt o (cpts c k)) (ctraj c) (ceps c) (cux c) (cuy c) (cut c).
(** ** _remove_trajectories (1553-1560): iter_traj is a fresh list, assigning in it forgets nothing *)
Definition crit_forget (c : crit) : crit := set_eps c None.

(** ** add_point (1118-1167) *)
Definition first_given (new : kind -> option points) : option points :=
  fold_right (fun k r => match new k with Some p => Some p | None => r end) None kinds.
Definition crit_add (asort : list num -> list nat) (c : crit) (new : kind -> option points) (time : num) : cout :=
  if existsb (qeqb time) (ctimes c) then (c, Some ValueErr)
  else
    let c1 := match ctimes c, first_given new with
              | [], Some p => set_uxy c (ptx p) (pty p)
              | _, _ => c end in
    let given k := match new k with Some p => p | None => mkpts [] [] (cux c1) (cuy c1) (cut c1) end in
    if existsb (fun k => negb (unit_eqb (ptx (given k)) (cux c1)) || negb (unit_eqb (pty (given k)) (cuy c1)))%bool kinds
    then (c1, Some ValueErr)
    else
      let c2 := set_times (set_pts c1 (fun k => cpts c1 k ++ [given k])) (ctimes c1 ++ [time]) in
      (crit_forget (crit_sort asort c2), None).

(** ** remove_point (1169-1198) and _get_indice_from_time (1581-1593) *)
Fixpoint first_index (f : num -> bool) (l : list num) : option nat :=
  match l with [] => None | x :: r => if f x then Some 0 else option_map S (first_index f r) end.
Definition crit_del (c : crit) (i : Z) : cout :=
  match each kinds (fun c k => match np_delete [i] (cpts c k) with
                               | Ok l => (set_pts c (updk (cpts c) k l), None)
                               | Err e => (c, Some e) end) c with
  | (c1, None) => match np_delete [i] (ctimes c1) with
                  | Ok l => (crit_forget (set_times c1 l), None)
                  | Err e => (c1, Some e) end
  | o => o
  end.
Definition crit_remove (c : crit) (time : option num) (indice : option Z) : cout :=
  match time, indice with
  | None, None | Some _, Some _ => (c, Some GenericErr)
  | Some t, None => match first_index (fun x => qeqb x t) (ctimes c) with
                    | None => (c, Some ValueErr)
                    | Some i => crit_del c (Z.of_nat i) end
  | None, Some i => crit_del c i
  end.

(** ** __add__ (469-499).  The point sets of the result are those of the operands, not copies: sharing is not modelled. *)
Fixpoint has_double (l : list num) : bool :=
  match l with a :: (b :: _) as r => (qeqb a b || has_double r)%bool | _ => false end.
Definition crit_plus (asort : list num -> list nat) (a b : crit) : res crit :=
  match ctimes b, ctimes a with
  | [], _ => Ok a
  | _, [] => Ok b
  | _, _ =>
    raise ValueErr when (negb (unit_eqb (cut a) (cut b))) ;;
    raise ValueErr when (negb (unit_eqb (cux a) (cux b))) ;;
    raise ValueErr when (negb (unit_eqb (cuy a) (cuy b))) ;;
    let t := crit_sort asort (mkcrit (ctimes a ++ ctimes b) (fun k => cpts a k ++ cpts b k) (fun _ => TNone) None
                                     (cux a) (cuy a) (cut a)) in
    raise ValueErr when (has_double (ctimes t)) ;;
    Ok t
  end.

(** ** Trajectories: _get_cp_time_evolution (1616-1850).  A point of a line is a position and a time. *)
Notation tpoint := ((num * num) * num)%type.
Definition dist2 (a b : num * num) : num :=
  ((fst a - fst b) * (fst a - fst b) + (snd a - snd b) * (snd a - snd b))%num.
(** squared distances; None is numpy's inf *)
Definition olt (a b : option num) : bool :=
  match a, b with Some x, Some y => qltb x y | Some _, None => true | None, _ => false end.
(** np.argmin: the first of the least entries *)
Fixpoint amin {A} (f : A -> option num) (best : A) (l : list A) : A :=
  match l with [] => best | x :: r => amin f (if olt (f x) (f best) then x else best) r end.
(** np.argmin of an n x m matrix, in row major order; the matrix is not empty *)
Definition argmin2 (n m : nat) (D : nat -> nat -> option num) : nat * nat :=
  amin (fun c => D (fst c) (snd c)) (0, 0) (list_prod (seq 0 n) (seq 0 m)).
Definition over (eps : option num) (d : num) : bool := match eps with None => false | Some e => qltb e d end.
(** the loop over the least distances (1733-1749).  Line 1739 compares the squared distance with epsilon itself. *)
Definition kill (D : nat -> nat -> option num) (i j : nat) : nat -> nat -> option num :=
  fun a b => if (Nat.eqb a i || Nat.eqb b j)%bool then None else D a b.
Fixpoint links (fuel n m : nat) (eps : option num) (D : nat -> nat -> option num) : list (nat * nat) :=
  match fuel with
  | 0 => []
  | S f =>
    let '(i, j) := argmin2 n m D in
    match D i j with
    | None => []
    | Some d => if over eps d then [] else (i, j) :: links f n m eps (kill D i j)
    end
  end.
(** make_one_step (1711-1759).  Every turn of the loop uses up one point, so that it makes at most as many turns
    as there are points.  The lines are extended after the loop and not during it: the matrix is computed before. *)
Definition last_pos (l : list tpoint) : num * num := fst (last l ((qz 0, qz 0), qz 0)).
Definition one_step (eps : option num) (closed open : list (list tpoint)) (new : list tpoint)
  : list (list tpoint) * list (list tpoint) :=
  let n := length new in let m := length open in
  let D i j := match nth_error new i, nth_error open j with
               | Some p, Some l => Some (dist2 (fst p) (last_pos l)) | _, _ => None end in
  let ls := if (Nat.eqb n 0 || Nat.eqb m 0)%bool then [] else links (S n) n m eps D in
  let used_line j := existsb (fun c => Nat.eqb (snd c) j) ls in
  let used_pt i := existsb (fun c => Nat.eqb (fst c) i) ls in
  let jl := combine (seq 0 m) open in
  let ip := combine (seq 0 n) new in
  let grow (t : nat * list tpoint) :=
    snd t ++ flat_map (fun c => if Nat.eqb (snd c) (fst t)
                                then match nth_error new (fst c) with Some p => [p] | None => [] end else []) ls in
  (closed ++ map snd (rev (filter (fun t => negb (used_line (fst t))) jl)),
   map grow (filter (fun t => used_line (fst t)) jl) ++
   map (fun t => [snd t]) (filter (fun t => negb (used_pt (fst t))) ip)).
(** make_all_steps (1761-1773) *)
Fixpoint all_steps (eps : option num) (groups : list (list tpoint)) (closed open : list (list tpoint)) : list (list tpoint) :=
  match groups with
  | [] => closed ++ open
  | g :: r => let '(c, o) := one_step eps closed open g in all_steps eps r c o
  end.
Definition lines_of (eps : option num) (groups : list (list tpoint)) : res (list (list tpoint)) :=
  match groups with
  | [] => Err IndexErr
  | g :: r => Ok (all_steps eps r [] (map (fun p => [p]) g))
  end.
(** PointField.__init__ (1656-1695) *)
Definition tpoints_of (p : points) : list tpoint := combine (xy p) (pv p).
Definition group_at (pts : list points) (t : num) : list tpoint :=
  map (fun q => (fst q, t)) (filter (fun q => qeqb t (snd q)) (flat_map tpoints_of pts)).
(** export_to_Points (1819-1830) *)
Definition line_points (u w z : unit_t) (l : list tpoint) : points := mkpts (map fst l) (map snd l) u w z.
(** get_trajectories (1775-1793): the longest first *)
Definition time_evolution (asort : list num -> list nat) (pts : list points) (times : list num) (eps : option num) : res trajs :=
  match pts with
  | [] => Ok (TList [])
  | p0 :: _ =>
    let* ls := lines_of eps (map (group_at pts) times) in
    let tr := map (line_points (ptx p0) (pty p0) (ptv p0)) ls in
    if Nat.ltb 1 (length tr)
    then Ok (TArr (gather tp_dflt (rev (asort (map (fun p => qn (length (xy p))) tr))) tr))
    else Ok (TList tr)
  end.

(** ** compute_traj (596-671), epsilon None (infinite) or a number *)
Definition stamp (times : list num) (i : nat) (p : points) : res points :=
  match xy p with
  | [] => Ok p
  | _ => match nth_error times i with
         | None => Err IndexErr
         | Some t => Ok (mkpts (xy p) (repeat t (length (xy p))) (ptx p) (pty p) (ptv p)) end
  end.
Definition stamped (times : list num) (l : list points) : res (list points) :=
  mapM (fun t => stamp times (fst t) (snd t)) (combine (seq 0 (length l)) l).
Definition decomposed (l : list points) : res (list points) :=
  let* r := mapM pts_decompose (filter (fun p => negb (Nat.eqb (length (xy p)) 0)) l) in Ok (concat r).
Definition crit_traj (asort : list num -> list nat) (c : crit) (eps : option num) : cout :=
  let c0 := set_eps c (Some eps) in
  match each kinds (fun c k => match stamped (ctimes c) (cpts c k) with
                               | Ok l => (set_pts c (updk (cpts c) k l), None)
                               | Err e => (c, Some e) end) c0 with
  | (c1, None) =>
    each kinds (fun c k => match (let* d := decomposed (cpts c k) in time_evolution asort d (ctimes c) eps) with
                           | Ok t => (set_traj c (updk (ctraj c) k t), None)
                           | Err e => (c, Some e) end) c1
  | o => o
  end.

(** ** clean_traj (1381-1405) and _traj_to_pts (1595-1613).  np.delete makes an array of the list. *)
Definition long_enough (n : nat) (p : points) : bool := negb (Nat.ltb (length (xy p)) n).
Definition clean_kind (n : nat) (t : trajs) : res trajs :=
  match t with
  | TNone => Err TypeErr
  | TList l => if forallb (long_enough n) l then Ok t else Ok (TArr (filter (long_enough n) l))
  | TArr l => Ok (TArr (filter (long_enough n) l))
  end.
(** tot += traj (1604-1605): the units of the trajectories of a kind are the same, so that the factors applied to the
    second operand are 1 and its new state is not recorded *)
Fixpoint sum_points (tot : points) (l : list points) : res points :=
  match l with [] => Ok tot | p :: r => let* t := fst (pts_plus tot p) in sum_points t r end.
Definition at_time (tot : points) (t : num) : points :=
  let f := map (fun v => qeqb v t) (pv tot) in mkpts (keep f (xy tot)) (keep f (pv tot)) (ptx tot) (pty tot) (ptv tot).
Definition traj_list (t : trajs) : option (list points) := match t with TNone => None | TList l | TArr l => Some l end.
Definition crit_clean (c : crit) (n : nat) : cout :=
  match ceps c with
  | None => (c, Some GenericErr)
  | Some _ =>
    match each kinds (fun c k => match clean_kind n (ctraj c k) with
                                 | Ok t => (set_traj c (updk (ctraj c) k t), None)
                                 | Err e => (c, Some e) end) c with
    | (c1, None) =>
      each kinds (fun c k => match traj_list (ctraj c k) with
                             | None => (c, Some TypeErr)
                             | Some l => match sum_points (mkpts [] [] (cux c) (cuy c) (cut c)) l with
                                         | Err e => (c, Some e)
                                         | Ok tot => (set_pts c (updk (cpts c) k (map (at_time tot) (ctimes c))), None) end end) c1
    | o => o
    end
  end.

(** ** set_origin (1200-1208): a kind without trajectories cannot be iterated *)
Definition each_traj (f : points -> points) (c : crit) (k : kind) : cout :=
  match ctraj c k with
  | TNone => (c, Some TypeErr)
  | TList l => (set_traj c (updk (ctraj c) k (TList (map f l))), None)
  | TArr l => (set_traj c (updk (ctraj c) k (TArr (map f l))), None)
  end.
Definition crit_origin (c : crit) (x y : option num) : cout :=
  match x, y with
  | None, None => (c, None)
  | _, _ => each kinds (each_traj (fun p => pts_set_origin p x y))
                 (set_pts c (fun k => map (fun p => pts_set_origin p x y) (cpts c k)))
  end.

(** ** scale (1260-1311): the scaled object; trajectories that were not computed are skipped *)
Definition map_traj (f : points -> points) (t : trajs) : trajs :=
  match t with TNone => TNone | TList l => TList (map f l) | TArr l => TArr (map f l) end.
Definition crit_scale (c : crit) (sx sy sv : sarg) : crit :=
  let un (u : unit_t) (a : sarg) := match a with SUnum _ w => unit_mul w u | _ => u end in
  mkcrit (map (fun t => t * sfact sv)%num (ctimes c)) (fun k => map (fun p => pts_scale p sx sy sv) (cpts c k))
         (fun k => map_traj (fun p => pts_scale p sx sy sv) (ctraj c k)) (ceps c)
         (un (cux c) sx) (un (cuy c) sy) (un (cut c) sv).

(** ** _remove_void_trajectories (1562-1570): a list cannot be indexed by an array, nor an array by the empty
    float array *)
Definition drop_void (c : crit) (k : kind) : cout :=
  match ctraj c k with
  | TNone => (c, Some TypeErr)
  | TList _ => (c, Some TypeErr)
  | TArr [] => (c, Some IndexErr)
  | TArr l => (set_traj c (updk (ctraj c) k (TArr (filter (fun p => negb (Nat.eqb (length (xy p)) 0)) l))), None)
  end.
(** ** crop (1313-1352), ind=False: the object as it is left, and the returned one (the same object when inplace).
    The loop of line 1337 and the call of line 1340 act on the original object. *)
Definition crop_times (c : crit) (t1 t2 : num) : crit :=
  let f := map (fun t => qleb t1 t && qleb t t2)%bool (ctimes c) in
  mkcrit (keep f (ctimes c)) (fun k => keep f (cpts c k)) (ctraj c) (ceps c) (cux c) (cuy c) (cut c).
Definition crop_trajs (c : crit) (t1 t2 : num) : cout :=
  match each kinds (each_traj (fun p => pts_crop p None None (Some (t1, t2)))) c with
  | (c1, None) => each kinds drop_void c1
  | o => o
  end.
Definition crop_space (c : crit) (ivx ivy : option (num * num)) : crit :=
  match ivx, ivy with
  | None, None => c
  | _, _ => crit_forget (set_pts c (fun k => map (fun p => pts_crop p ivx ivy None) (cpts c k)))
  end.
Definition crit_crop (c : crit) (ivx ivy ivt : option (num * num)) (inplace : bool) : crit * res crit :=
  match ivt with
  | None => let r := crop_space c ivx ivy in (if inplace then r else c, Ok r)
  | Some (t1, t2) =>
    if inplace then
      match crop_trajs (crop_times c t1 t2) t1 t2 with
      | (s, Some e) => (s, Err e)
      | (s, None) => let r := crop_space s ivx ivy in (r, Ok r)
      end
    else
      match crop_trajs c t1 t2 with
      | (s, Some e) => (s, Err e)
      | (s, None) => (s, Ok (crop_space (crop_times c t1 t2) ivx ivy))
      end
  end.

(** ** Topological simplification: TopoPoints (2132-2325) *)
(** 2152-2178: points with the code of their kind (1 focus, 2 focus_c, 3 saddle, 4 node_i, 5 node_o) *)
Record topo : Type := mktopo { txy : list (num * num); ttys : list Z }.
Definition type_pbi (t : Z) : Z :=
  if ((t =? 1) || (t =? 2) || (t =? 4) || (t =? 5))%Z%bool then 1%Z else if (t =? 3)%Z then (-1)%Z else 0%Z.
Definition tpbis (t : topo) : list Z := map type_pbi (ttys t).
(** import_from_arrays: an empty list of points has one dimension only.  Line 2165 never raises: points and types
    of different lengths are not modelled further. *)
Definition topo_import (l : list (num * num)) (ty : list Z) : res topo :=
  raise ValueErr when (Nat.eqb (length l) 0) ;; Ok (mktopo l ty).
(** import_from_CP (2180-2200): the test of line 2188 refuses numpy integers *)
Definition code (k : kind) : Z := match k with Foc => 1 | FocC => 2 | Sadd => 3 | NodeI => 4 | NodeO => 5 end%Z.
Definition topo_of_frame (c : crit) (i : nat) (python_int : bool) : res topo :=
  raise TypeErr when (negb python_int) ;;
  raise ValueErr when (Nat.leb (length (cpts c Foc)) i) ;;
  let* l := mapM (fun k => match nth_error (cpts c k) i with
                           | None => Err IndexErr
                           | Some p => Ok (map (fun q => (q, code k)) (xy p)) end) [Foc; FocC; Sadd; NodeI; NodeO] in
  topo_import (map fst (concat l)) (map snd (concat l)).

(** the working arrays of simplify (2238-2245) *)
Record sstate : Type := mkss
  { sD : nat -> nat -> option num; sxy : nat -> num * num; swt : nat -> Z; sact : nat -> bool;
    stys : nat -> list Z; spb : nat -> Z }.
Definition upd {A} (f : nat -> A) (i : nat) (v : A) : nat -> A := fun j => if Nat.eqb j i then v else f j.
(** _get_dist2 (2202-2210): the upper triangle *)
Definition ss_init (t : topo) : sstate :=
  let p i := nth i (txy t) (qz 0, qz 0) in
  mkss (fun i j => if Nat.ltb i j then Some (dist2 (p i) (p j)) else None) p (fun _ => 1%Z) (fun _ => true)
       (fun i => [nth i (ttys t) 0%Z]) (fun i => nth i (tpbis t) 0%Z).
(** rows and columns set to inf *)
Definition kill2 (D : nat -> nat -> option num) (i j : nat) : nat -> nat -> option num :=
  fun a b => if (Nat.eqb a i || Nat.eqb b i || Nat.eqb a j || Nat.eqb b j)%bool then None else D a b.
Definition ss_delete (s : sstate) (i j : nat) : sstate :=
  if (spb s i + spb s j =? 0)%Z
  then mkss (kill2 (sD s) i j) (sxy s) (swt s) (upd (upd (sact s) i false) j false) (stys s) (spb s)
  else mkss (fun a b => if ((Nat.eqb a i && Nat.eqb b j) || (Nat.eqb a j && Nat.eqb b i))%bool then None else sD s a b)
            (sxy s) (swt s) (sact s) (stys s) (spb s).
Definition ss_merge (n : nat) (s : sstate) (i j : nat) : sstate :=
  let wi := qz (swt s i) in let wj := qz (swt s j) in
  let mid := ((fst (sxy s i) * wi + fst (sxy s j) * wj) / (wi + wj), (snd (sxy s i) * wi + snd (sxy s j) * wj) / (wi + wj))%num in
  let off := upd (upd (sact s) i false) j false in
  let D := kill2 (sD s) i j in
  let nd a := if off a then Some (dist2 (sxy s a) mid) else None in
  mkss (fun a b => if Nat.eqb b i then nd a else if Nat.eqb a i then nd b else D a b)
       (upd (sxy s) i mid) (upd (swt s) i (swt s i + swt s j)%Z) (upd off i true)
       (upd (stys s) i (stys s i ++ stys s j)) (upd (spb s) i (spb s i + spb s j)%Z).
(** the loop (2246-2292); the code has no bound on the number of turns *)
Fixpoint ss_loop (fuel n : nat) (merge : bool) (lim : num) (s : sstate) : res sstate :=
  match fuel with
  | 0 => Err OutOfFuel
  | S f =>
    let '(i, j) := argmin2 n n (sD s) in
    match sD s i j with
    | None => Ok s
    | Some d => if qltb lim d then Ok s
                else ss_loop f n merge lim (if merge then ss_merge n s i j else ss_delete s i j)
    end
  end.
(** the type of an equivalent point (2302-2321).  The test of line 2304 is always true. *)
Definition count (t : Z) (l : list Z) : nat := length (filter (Z.eqb t) l).
Definition equiv_type (l : list Z) (pb : Z) : Z :=
  match l with
  | [t] => t
  | _ => if negb ((pb =? -1) || (pb =? 1))%Z%bool then 0%Z
         else if (pb =? -1)%Z then 3%Z
         else Z.of_nat (S (amin (fun i => option_map (fun c => 0 - qn c)%num
                                            (nth_error [count 1 l; count 2 l; 0; count 4 l; count 5 l] i))
                                0 (seq 0 5)))
  end.
(** simplify (2212-2325), a finite distance *)
Definition topo_simplify (t : topo) (dist_min : num) (merge : bool) : res topo :=
  let n := length (txy t) in
  raise ValueErr when (Nat.eqb n 0) ;; (* argmin of an empty sequence *)
  let* s := ss_loop (S (n * n)) n merge (dist_min * dist_min)%num (ss_init t) in
  let kept := filter (fun i => sact s i && negb (spb s i =? 0)%Z)%bool (seq 0 n) in
  Ok (mktopo (map (sxy s) kept) (map (fun i => equiv_type (stys s i) (spb s i)) kept)).

(** CritPoints.topo_simplify (1426-1471): the indices come from np.arange and are numpy integers *)
Definition simplified_kind (c : crit) (t : topo) (time : num) (k : kind) : points :=
  let l := map fst (filter (fun q => (snd q =? code k)%Z) (combine (txy t) (ttys t))) in
  mkpts l (repeat time (length l)) (cux c) (cuy c) (cut c).
Fixpoint simplify_from (asort : list num -> list nat) (c : crit) (dist_min : num) (merge python_int : bool)
  (l : list (nat * num)) (acc : crit) : res crit :=
  match l with
  | [] => Ok acc
  | (i, time) :: r =>
    let* t := topo_of_frame c i python_int in
    let* t' := topo_simplify t dist_min merge in
    match crit_add asort acc (fun k => Some (simplified_kind c t' time k)) time with
    | (acc', None) => simplify_from asort c dist_min merge python_int r acc'
    | (_, Some e) => Err e
    end
  end.
Definition crit_simplify (asort : list num -> list nat) (c : crit) (dist_min : num) (merge : bool) : res crit :=
  simplify_from asort c dist_min merge false (combine (seq 0 (length (ctimes c))) (ctimes c)) (crit_new (cut c)).
