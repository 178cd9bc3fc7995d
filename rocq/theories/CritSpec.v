(** * CritSpec: vocabulary for sets of critical points in time. *)
From Verif Require Import Num Res ListLib SortLib SeqSpec Arr FieldModel ScalarFieldModel ProfileModel ProfileSpec PointsModel PointsSpec CritModel.
From Coq Require Import Permutation.

(** strictly increasing times, and one point set per time for each of the five kinds *)
Definition crit_ok (c : crit) : Prop :=
  increasing (ctimes c) /\ forall k, length (cpts c k) = length (ctimes c).
(** the point sets of a kind with their times *)
Definition frames (c : crit) (k : kind) : list (num * points) := combine (ctimes c) (cpts c k).
(** every critical point of a kind: its position and its time *)
Definition located (c : crit) (k : kind) : list tpoint :=
  flat_map (fun f => map (fun q => (q, fst f)) (xy (snd f))) (frames c k).
(** the points of trajectories, with the times recorded in the trajectories *)
Definition on_trajs (l : list points) : list tpoint := flat_map (fun p => combine (xy p) (pv p)) l.
(** the trajectories available for a kind *)
Definition trajectories (c : crit) (k : kind) : option (list points) :=
  match ctraj c k with TNone => None | TList l => Some l | TArr l => Some l end.
(** t' is the time that follows t *)
Definition follows (times : list num) (t t' : num) : Prop := exists l1 l2, times = l1 ++ t :: t' :: l2.
(** the times of a trajectory are successive times of the object, one per point *)
Definition contiguous (times : list num) (p : points) : Prop :=
  xy p <> [] /\ length (pv p) = length (xy p) /\ exists l1 l2, times = l1 ++ pv p ++ l2.
(** squared distances not exceeding the threshold; no threshold means any distance *)
Definition within (eps : option num) (d : num) : Prop := match eps with None => True | Some e => (d <= e)%num end.
(** every trajectory is made of the points of the object, and every point is in exactly one trajectory *)
Definition partitions (c : crit) : Prop :=
  forall k l, trajectories c k = Some l -> Permutation (on_trajs l) (located c k).
(** every kind has trajectories *)
Definition computed (c : crit) : Prop := forall k, trajectories c k <> None.

(** ** groups of points *)
Definition qsumf {A} (f : A -> num) (l : list A) : num := fold_right (fun a s => (f a + s)%num) 0%num l.
Definition zsumf {A} (f : A -> Z) (l : list A) : Z := fold_right (fun a s => (f a + s)%Z) 0%Z l.
Definition position (t : topo) (i : nat) : num * num := nth i (txy t) (qz 0, qz 0).
Definition type_of (t : topo) (i : nat) : Z := nth i (ttys t) 0%Z.
(** index of a kind of point: +1 for foci and nodes, -1 for saddles *)
Definition index_of (ty : Z) : Z :=
  match ty with 1 | 2 | 4 | 5 => 1 | 3 => -1 | _ => 0 end%Z.
Definition total_index (t : topo) : Z := zsumf index_of (ttys t).
Definition group_index (t : topo) (g : list nat) : Z := zsumf (fun i => index_of (type_of t i)) g.
(** the centre of mass of a group of points *)
Definition centre (t : topo) (g : list nat) : num * num :=
  (qsumf (fun i => fst (position t i)) g / qn (length g), qsumf (fun i => snd (position t i)) g / qn (length g))%num.
Definition topo_ok (t : topo) : Prop := txy t <> [] /\ length (ttys t) = length (txy t).
(** the pairs of points of a simplification by deletion *)
Definition ends (p : nat * nat) : list nat := [fst p; snd p].

(** ** trajectories *)
(** successive points of a line are within the threshold *)
Definition steps_within (eps : option num) (l : list tpoint) : Prop :=
  forall l1 a b l2, l = l1 ++ a :: b :: l2 -> within eps (sqdist (fst a) (fst b)).
(** two points of successive times that could be linked are not, only if one of them is linked to a point at least as near *)
Definition stable (eps : option num) (times : list num) (lines : list (list tpoint)) : Prop :=
  forall A B p q t t', In A lines -> In B lines -> In (p, t) A -> In (q, t') B -> follows times t t' ->
    within eps (sqdist p q) ->
    (exists p', In (p', t') A /\ (sqdist p p' <= sqdist p q)%num) \/
    (exists q', In (q', t) B /\ (sqdist q' q <= sqdist p q)%num).
(** the points of a trajectory with their times *)
Definition line_of (p : points) : list tpoint := combine (xy p) (pv p).
(** the longest trajectories come first *)
Definition longest_first (l : list points) : Prop :=
  forall i j p q, i < j -> nth_error l i = Some p -> nth_error l j = Some q -> length (xy q) <= length (xy p).

(** ** histories *)
(** the point set given for a kind, or an empty one *)
Definition given_set (new : kind -> option points) (k : kind) (p : points) : Prop :=
  match new k with Some q => p = q | None => xy p = [] /\ pv p = [] end.
(** the units of the given points agree with each other, and with those of an object that has points already *)
Definition units_agree (c : crit) (new : kind -> option points) : Prop :=
  exists u w, (ctimes c <> [] -> cux c = u /\ cuy c = w) /\ forall k p, new k = Some p -> ptx p = u /\ pty p = w.
(** every object that can be obtained by the operations of the class, whether or not they raise *)
Inductive built (asort : list num -> list nat) : crit -> Prop :=
| b_new u : built asort (crit_new u)
| b_add c new t : built asort c -> built asort (fst (crit_add asort c new t))
| b_remove c t i : built asort c -> built asort (fst (crit_remove c t i))
| b_plus a b c : built asort a -> built asort b -> crit_plus asort a b = Ok c -> built asort c
| b_traj c eps : built asort c -> built asort (fst (crit_traj asort c eps))
| b_clean c n : built asort c -> built asort (fst (crit_clean c n))
| b_origin c x y : built asort c -> built asort (fst (crit_origin c x y))
| b_scale c sx sy sv : built asort c -> (0 < sfact sv)%num -> built asort (crit_scale c sx sy sv)
| b_crop c ivx ivy ivt ip : built asort c -> built asort (fst (crit_crop c ivx ivy ivt ip))
| b_cropped c ivx ivy ivt ip r : built asort c -> snd (crit_crop c ivx ivy ivt ip) = Ok r -> built asort r.
(** positive unit scales *)
Definition units_pos (p : points) : Prop := (0 < sc (ptx p) /\ 0 < sc (pty p) /\ 0 < sc (ptv p))%num.
Definition enough_points (n : nat) (p : points) : bool := Nat.leb n (length (xy p)).
(** a critical point in a box and a time interval *)
Definition in_window (ivx ivy ivt : option (num * num)) (x : tpoint) : bool :=
  (in_iv ivx (fst (fst x)) && in_iv ivy (snd (fst x)) && in_iv ivt (snd x))%bool.
Definition moved (ox oy : option num) (x : tpoint) : tpoint := ((shifted ox (fst (fst x)), shifted oy (snd (fst x))), snd x).
Definition stretched (sx sy sv : num) (x : tpoint) : tpoint := ((fst (fst x) * sx, snd (fst x) * sy), snd x * sv)%num.
(** ** simplification *)
Definition distinct_in {A} (l : list A) (a b : A) : Prop := exists i j, i <> j /\ nth_error l i = Some a /\ nth_error l j = Some b.
(** the groups obtained from single points by merging, each time, the two groups whose centres are the nearest *)
Inductive merged (t : topo) (lim : num) : list (list nat) -> Prop :=
| m_none : merged t lim (map (fun i => [i]) (seq 0 (length (txy t))))
| m_next gs a b rest gs' : merged t lim gs -> Permutation gs (a :: b :: rest) ->
    (sqdist (centre t a) (centre t b) <= lim)%num ->
    (forall x y, distinct_in gs x y -> sqdist (centre t a) (centre t b) <= sqdist (centre t x) (centre t y))%num ->
    Permutation gs' ((a ++ b) :: rest) -> merged t lim gs'.
Definition occurs (t : topo) (g : list nat) (ty : Z) : nat := length (filter (fun i => Z.eqb ty (type_of t i)) g).
(** the type given to the point that replaces a group *)
Definition summary_type (t : topo) (g : list nat) (ty : Z) : Prop :=
  match g with
  | [i] => ty = type_of t i
  | _ => (group_index t g = (-1)%Z -> ty = 3%Z) /\
         (group_index t g = 1%Z -> index_of ty = 1%Z /\ forall ty', index_of ty' = 1%Z -> occurs t g ty' <= occurs t g ty) /\
         (group_index t g <> (-1)%Z -> group_index t g <> 1%Z -> ty = 0%Z)
  end.
(** well formed point sets *)
Definition sets_ok (c : crit) : Prop := forall k p, In p (cpts c k) -> pts_ok p.
(** every kind has its trajectories in a numpy array, which is not empty *)
Definition several (c : crit) : Prop := forall k, exists l, ctraj c k = TArr l /\ l <> [].
