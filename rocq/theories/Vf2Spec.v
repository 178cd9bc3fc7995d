(** * Vf2Spec: sums and products of vector fields, and equality of fields, for their user. *)
From Verif Require Import Num Res ListLib Arr FieldModel ScalarFieldModel VectorFieldModel FieldSpec SpatialSpec.

(** the units of two vector fields have the same dimensions *)
Definition vcompatible (f h : vfield) : Prop :=
  dim (vuv f) = dim (vuv h) /\ dim (ux (vg f)) = dim (ux (vg h)) /\ dim (uy (vg f)) = dim (uy (vg h)).
(** different coordinates of the two axes differ by more than a ten thousandth of their values *)
Definition well_apart (a b : list num) : Prop :=
  forall p q, In p a -> In q b -> p <> q -> (qabs p <= qz 10000 * qabs (p - q))%num /\ (qabs q <= qz 10000 * qabs (p - q))%num.
(** 0 is not a coordinate of both *)
Definition no_common_zero (a b : list num) : Prop := ~ (In (qz 0) a /\ In (qz 0) b).
Definition two_common (a b : list num) : Prop :=
  exists p q, p <> q /\ In p a /\ In q a /\ In p b /\ In q b.
(** at (x, y), s shows the sum of what f and h show, in the unit of f, and it is masked where one of them is *)
Definition shows_sum (f h s : vfield) : Prop :=
  forall x y v w m, vf_shows s x y v w m <->
    exists v1 w1 m1 v2 w2 m2, vf_shows f x y v1 w1 m1 /\ vf_shows h x y v2 w2 m2 /\ m = orb m1 m2 /\
      osum_phys v (vuv f) v1 (vuv f) v2 (vuv h) /\ osum_phys w (vuv f) w1 (vuv f) w2 (vuv h).

(** the same for differences *)
Definition shows_difference (f h s : vfield) : Prop :=
  forall x y v w m, vf_shows s x y v w m <->
    exists v1 w1 m1 v2 w2 m2, vf_shows f x y v1 w1 m1 /\ vf_shows h x y v2 w2 m2 /\ m = orb m1 m2 /\
      osum_phys v (vuv f) v1 (vuv f) (option_map Qcopp v2) (vuv h) /\ osum_phys w (vuv f) w1 (vuv f) (option_map Qcopp w2) (vuv h).

(** r is on the grid of f; its masks come from those of f by [masking x y], and its shown vectors from the vectors of f by [act x y] *)
Definition acts (f r : vfield) (masking : num -> num -> bool -> bool -> Prop) (act : num -> num -> num -> num -> num -> num -> Prop) : Prop :=
  vg r = vg f /\ vf_wf r /\ vf_tidy r /\
  forall x y v w m, vf_shows f x y v w m ->
    exists v' w' m', vf_shows r x y v' w' m' /\ masking x y m m' /\
      (m' = false -> exists a b a' b', v = Some a /\ w = Some b /\ v' = Some a' /\ w' = Some b' /\ act x y a b a' b').
Definition same_mask (x y : num) (m m' : bool) : Prop := m' = m.
(** the value of an array of numbers at the position (x, y) of the grid *)
Definition arr_at (g : grid) (o : arr num) (x y t : num) : Prop := at_pos (ax g) (ay g) o x y t.

(** what [==] should mean: same axes, same units, and the same vectors shown at the same places *)
Definition vf_equal (f h : vfield) : Prop :=
  ax (vg f) = ax (vg h) /\ ay (vg f) = ay (vg h) /\ ux (vg f) = ux (vg h) /\ uy (vg f) = uy (vg h) /\ vuv f = vuv h /\
  forall x y v w, vf_shows f x y (Some v) (Some w) false <-> vf_shows h x y (Some v) (Some w) false.
(** two numbers that differ by at most 1e-8 + 1e-5 |b| *)
Definition close_to (a b : num) : Prop := (qabs (a - b) <= qq 1 100000000 + qq 1 100000 * qabs b)%num.
(** [==] of scalar fields, up to the tolerance: axes and shown values close, same masks, same units *)
Definition sf_near (f h : sfield) : Prop :=
  Forall2 close_to (ax (sg f)) (ax (sg h)) /\ Forall2 close_to (ay (sg f)) (ay (sg h)) /\
  ux (sg f) = ux (sg h) /\ uy (sg f) = uy (sg h) /\ uv f = uv h /\
  forall i j, cell_in f i j -> at_ (msk f) i j = at_ (msk h) i j /\
    (at_ (msk f) i j = false -> exists v w, at_ (values f) i j = Some v /\ at_ (values h) i j = Some w /\ close_to v w).

(** f' is a contiguous part of f *)
Definition vf_part (f f' : vfield) : Prop :=
  exists x0 y0,
    (forall i, i < length (ax (vg f')) -> nth_error (ax (vg f')) i = nth_error (ax (vg f)) (x0 + i)) /\
    (forall j, j < length (ay (vg f')) -> nth_error (ay (vg f')) j = nth_error (ay (vg f)) (y0 + j)) /\
    (forall i j, i < length (ax (vg f')) -> j < length (ay (vg f')) ->
       at_ (cx f') i j = at_ (cx f) (x0 + i) (y0 + j) /\ at_ (cy f') i j = at_ (cy f) (x0 + i) (y0 + j) /\ at_ (vmsk f') i j = at_ (vmsk f) (x0 + i) (y0 + j)).
Definition vcell_in (f : vfield) (i j : nat) : Prop := i < length (ax (vg f)) /\ j < length (ay (vg f)).

(** what the arrays given to an import say of the position (px, py) *)
Definition vgiven (x y : list num) (vx vy : arr onum) (m : arr bool) (px py : num) (a b : onum) (k : bool) : Prop :=
  exists i j, nth_error x i = Some px /\ nth_error y j = Some py /\
    k = (at_ m i j || isnan (at_ vx i j) || isnan (at_ vy i j))%bool /\
    a = (if k then None else at_ vx i j) /\ b = (if k then None else at_ vy i j).

(** the shown values of the block of k x k cells whose first cell is (i k, j k) *)
Definition block_values (v : arr onum) (m : arr bool) (k i j : nat) : list onum :=
  map (fun c => at_ v (fst c) (snd c)) (filter (fun c => negb (at_ m (fst c) (snd c))) (list_prod (seq (i * k) k) (seq (j * k) k))).
(** a is the mean of the numbers of l *)
Definition is_mean (l : list onum) (a : onum) : Prop :=
  exists ns s, l = map Some ns /\ ns <> [] /\ a = Some s /\ (s * qn (length ns))%num = Num.qsum ns.
(** r is f on a grid k times coarser *)
Definition coarse_axis (l r : list num) (k : nat) : Prop :=
  length r = length l / k /\
  forall i p, nth_error r i = Some p -> exists a b, nth_error l (i * k + (k / 2 - 1)) = Some a /\ nth_error l (i * k + k / 2) = Some b /\ (p * 2 = a + b)%num.
(** a normal form of units: a number and a unit whose product is the given unit *)
Definition normal_form (norm : unit_t -> num * unit_t) : Prop :=
  forall u, let '(k, w) := norm u in dim w = dim u /\ (k * sc w)%num = sc u.
