(** * BlSpec: what a velocity profile, its thicknesses and the profiles of a field are for their user *)
From Verif Require Import Num Res ListLib SortLib Arr FieldModel ScalarFieldModel FieldSpec PointsSpec ProfileModel ProfileSpec BlModel.

(** the profile shows the points [l], none of them masked *)
Definition curve (p : profile) (l : list (num * num)) : Prop :=
  prof_ok p /\ samples p = map (fun t => (fst t, Some (snd t), false)) l.
(** positions strictly increasing from the wall at x >= 0 *)
Definition from_wall (l : list (num * num)) : Prop := increasing (map fst l) /\ forall x u, In (x, u) l -> (0 <= x)%num.
(** the largest velocity *)
Definition greatest (l : list (num * num)) (m : num) : Prop := (exists x, In (x, m) l) /\ forall x u, In (x, u) l -> (u <= m)%num.
(** (x, u) is on the line drawn between two successive points *)
Definition on_polyline (l : list (num * num)) (x u : num) : Prop :=
  In (x, u) l \/
  exists i x0 u0 x1 u1, nth_error l i = Some (x0, u0) /\ nth_error l (S i) = Some (x1, u1) /\ (x0 < x < x1)%num /\ on_line x0 x1 x u0 u1 u.
(** never decreasing away from the wall *)
Definition monotone (l : list (num * num)) : Prop := forall x u x' u', In (x, u) l -> In (x', u') l -> (x <= x')%num -> (u <= u')%num.
(** the points up to [d], with a wall point (0, 0) when there is none at x = 0 *)
Definition upto (l : list (num * num)) (d : num) : list (num * num) := filter (fun t => qleb (fst t) d) l.
Definition walled (l : list (num * num)) : list (num * num) :=
  match l with (x, u) :: _ => if qeqb x 0%num then l else (0%num, 0%num) :: l | [] => [] end.
(** the integral of [g(u/m)] along the polyline of these values *)
Definition area_of (g : num -> num) (m : num) (l : list (num * num)) : onum := area (map (fun t => (fst t, Some (g (snd t / m)%num))) l).

(** the same profile with x measured in a unit [a] times smaller and y in a unit [c] times smaller *)
Definition rescaled (a c : num) (p p' : profile) : Prop :=
  prof_ok p /\ prof_ok p' /\ samples p' = map (fun t => (sx t * a, oscale c (sy t), smask t)%num) (samples p).
(** the result of the second computation is [a] times the one of the first, and it fails exactly when the first does *)
Definition result_times (a : num) (r r' : res onum) : Prop :=
  match r with Ok o => r' = Ok (oscale a o) | Err e => r' = Err e end.

(** ** fields *)
(** value and mask of the field at the [k]-th position along [d] and [j]-th position along the other axis *)
Definition cell_value (f : sfield) (d : pdir) (k j : nat) : onum := match d with DX => at_ (values f) k j | DY => at_ (values f) j k end.
Definition cell_mask (f : sfield) (d : pdir) (k j : nat) : bool := match d with DX => at_ (msk f) k j | DY => at_ (msk f) j k end.
(** the axis that is not [d], and its unit *)
Definition other_axis (f : sfield) (d : pdir) : list num := match d with DX => ay (sg f) | DY => ax (sg f) end.
Definition other_unit (f : sfield) (d : pdir) : unit_t := match d with DX => uy (sg f) | DY => ux (sg f) end.
(** the profile runs along the other axis and its [j]-th sample holds the value [v j], being masked exactly where [m j] *)
Definition runs (f : sfield) (d : pdir) (p : profile) (v : nat -> onum -> bool -> Prop) : Prop :=
  px p = other_axis f d /\ pux p = other_unit f d /\ puy p = uv f /\ prof_ok p /\
  forall j, j < length (other_axis f d) -> v j (nth j (yv p) None) (nth j (pm p) false).
(** the [k]-th line of the field *)
Definition is_line (f : sfield) (d : pdir) (k : nat) (p : profile) : Prop :=
  runs f d p (fun j y m => y = cell_value f d k j /\ m = (cell_mask f d k j || isnan (cell_value f d k j))%bool).
(** a field with increasing, non-empty axes *)
Definition field_ok (f : sfield) : Prop := sf_wf f /\ grid_sorted (sg f) /\ ax (sg f) <> [] /\ ay (sg f) <> [].
(** the position [k] of the axis is one of the nearest to [v] *)
Definition nearest_to (l : list num) (v : num) (k : nat) : Prop :=
  k < length l /\ forall i, i < length l -> (qabs (v - nths l k) <= qabs (v - nths l i))%num.
(** between the positions [k] and [k+1], the values are interpolated; there is none where a neighbour has none *)
Definition blends (f : sfield) (d : pdir) (k : nat) (v : num) (j : nat) (y : onum) : Prop :=
  match cell_value f d k j, cell_value f d (S k) j with
  | Some a, Some b => exists r, y = Some r /\ on_line (nths (pos_axis f d) k) (nths (pos_axis f d) (S k)) v a b r /\ (qmin a b <= r <= qmax a b)%num
  | _, _ => y = None
  end.
(** the average over the selected lines: there is one exactly when there is a line and all have a value there *)
Definition averages (f : sfield) (d : pdir) (sel : nat -> Prop) (j : nat) (y : onum) (m : bool) : Prop :=
  exists ks, NoDup ks /\ (forall k, In k ks <-> k < length (pos_axis f d) /\ sel k) /\
    ((ks = [] \/ exists k, In k ks /\ cell_value f d k j = None) -> y = None /\ m = true) /\
    (ks <> [] -> forall l, map Some l = map (fun k => cell_value f d k j) ks -> m = false /\ exists v, y = Some v /\ (v * qn (length ks) = total l)%num).
