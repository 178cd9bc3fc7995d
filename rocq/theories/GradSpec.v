(** * GradSpec: what the theorems about filling, gradients and vortex criteria say. *)
From Verif Require Import Num Res ListLib Arr FieldModel ScalarFieldModel VectorFieldModel FieldSpec GradModel.

(** an axis with the constant step h *)
Definition evenly (l : list num) (h : num) : Prop :=
  (0 < h)%num /\ 2 <= length l /\ forall i, i < length l -> nths l i = (nths l 0 + qn i * h)%num.
(** the field shows G x y at every position (x, y) of its grid, nothing masked *)
Definition sf_is (f : sfield) (G : num -> num -> num) : Prop :=
  forall x y v m, sf_shows f x y v m -> v = Some (G x y) /\ m = false.
Definition vf_is (f : vfield) (G H : num -> num -> num) : Prop :=
  forall x y vx vy m, vf_shows f x y vx vy m -> vx = Some (G x y) /\ vy = Some (H x y) /\ m = false.
(** the points on which the difference at point i of an axis of n points rests: the two neighbours, or the point and its
    neighbour at an end *)
Definition stencil (n i k : nat) : Prop :=
  k < n /\ (k = S i \/ S k = i \/ (k = i /\ (i = 0 \/ S i = n))).
(** the same axes and units of axes *)
Definition on_grid (g : grid) (f : sfield) (u : unit_t) : Prop :=
  sg f = g /\ uv f = u /\ sf_wf f.
(** vector fields without hidden or missing values *)
Definition vf_full (f : vfield) : Prop :=
  forall i j, i < length (ax (vg f)) -> j < length (ay (vg f)) ->
    at_ (vmsk f) i j = false /\ (exists a, at_ (cx f) i j = Some a) /\ (exists b, at_ (cy f) i j = Some b).
Definition vf_clean (f : vfield) : Prop :=
  forall i j, i < length (ax (vg f)) -> j < length (ay (vg f)) ->
    (at_ (cx f) i j = None <-> at_ (vmsk f) i j = true) /\ (at_ (cy f) i j = None <-> at_ (vmsk f) i j = true).
(** what a masked cell receives: the given value, the nearest value, or the interpolated one and the nearest where the
    interpolation gives nothing *)
Definition or_else (a b : onum) : onum := match a with Some _ => a | None => b end.
Definition replacement (nearest linear cubic : onum) (kind : fkind) (value : num) : onum :=
  match kind with
  | FValue => Some value
  | FNearest => nearest
  | FLinear => or_else linear nearest
  | FCubic => or_else cubic nearest
  | FOther => None
  end.
Definition nothing_masked (f : sfield) : Prop :=
  forall x y v m, sf_shows f x y v m -> m = false.
(** a vector field on the same axes, in the same units *)
Definition on_vgrid (g : grid) (u : unit_t) (f : vfield) : Prop := vg f = g /\ vuv f = u /\ vf_wf f.
(** f 0 + ... + f (n-1) *)
Fixpoint sumn (n : nat) (f : nat -> num) : num := match n with 0 => 0%num | S n' => (sumn n' f + f n')%num end.
(** ** neighbourhoods: the points of the plane of indices at a distance at most r of (i, j) *)
Definition disc (r : num) (i j a b : Z) : Prop := (qz (a - i) * qz (a - i) + qz (b - j) * qz (b - j) <= r * r)%num.
(** a cell of an array of n x m, not masked *)
Definition usable (n m : nat) (mask : nat -> nat -> bool) (a b : Z) : Prop :=
  exists p q, a = Z.of_nat p /\ b = Z.of_nat q /\ p < n /\ q < m /\ mask p q = false.
(** the disc contains a masked point or a point outside the field *)
Definition spoiled (n m : nat) (mask : nat -> nat -> bool) (r : num) (i j : nat) : Prop :=
  exists a b, disc r (Z.of_nat i) (Z.of_nat j) a b /\ ~ usable n m mask a b.
(** the mask of the field and the one given by the user *)
Definition both_masks (f : vfield) (user : option (arr bool)) (p q : nat) : bool :=
  match user with None => at_ (vmsk f) p q | Some a => (at_ a p q || at_ (vmsk f) p q)%bool end.
Definition user_fits (f : vfield) (user : option (arr bool)) : Prop :=
  match user with None => True | Some a => has_shape a (length (ax (vg f))) (length (ay (vg f))) end.
(** the neighbours of the cell (i, j): the other points of the disc *)
Definition neighbours (r : num) (i j : nat) (l : list (nat * nat)) : Prop :=
  NoDup l /\ forall p q, In (p, q) l <-> (p, q) <> (i, j) /\ disc r (Z.of_nat i) (Z.of_nat j) (Z.of_nat p) (Z.of_nat q).
