(** * TemporalSpec: what a series of frames is for its user: the list of its (time, frame) pairs. *)
From Verif Require Import Num Res ListLib SortLib Arr FieldModel ScalarFieldModel VectorFieldModel ProfileModel FieldSpec SeqSpec
  PointsModel PointsSpec TemporalModel.

(** the frames with their times, in order *)
Definition frames {F} (t : tfield F) : list (num * F) := combine (tft t) (tff t).
(** one time per frame, in increasing order *)
Definition tf_ok {F} (t : tfield F) : Prop := length (tft t) = length (tff t) /\ nondecreasing (tft t).
(** all the frames live on the grid of the series *)
Definition one_grid {F} (ops : fops F) (t : tfield F) : Prop := forall f, In f (tff t) -> o_grid ops f = tfg t.

(** histories of a series: additions of frames and removals of one frame, whether they raise or not *)
Inductive tfop (F : Type) := TFAdd (f : F) (time : num) (u : unit_t) | TFRemove (i : Z).
Arguments TFAdd {F} _ _ _. Arguments TFRemove {F} _.
Definition tfstep {F} (ops : fops F) (asort : list num -> list nat) (t : tfield F) (o : tfop F) : tfield F :=
  match o with TFAdd f time u => fst (tf_add ops asort t f time u) | TFRemove i => fst (tf_remove t [i]) end.
Definition adds_in {F} (u : unit_t) (l : list (tfop F)) : Prop := forall f time w, In (TFAdd f time w) l -> w = u.

Definition in_ivt (iv : option (num * num)) (x : num) : bool :=
  match iv with None => true | Some (a, b) => (qleb a x && qleb x b)%bool end.
Definition strictly_decreasing (l : list Z) : Prop := forall i j a b, i < j -> nth_error l i = Some a -> nth_error l j = Some b -> (b < a)%Z.

(** [t'] has the same times as [t] and each of its frames is obtained by [R] from the corresponding frame *)
Definition each_frame {F} (R : F -> F -> Prop) (t t' : tfield F) : Prop :=
  Forall2 (fun a b => fst b = fst a /\ R (snd a) (snd b)) (frames t) (frames t').
(** the frames of [t] whose time lies in the interval *)
Definition in_time {F} (ivt : option (num * num)) (t : tfield F) : list (num * F) := filter (fun s => in_ivt ivt (fst s)) (frames t).
(** the interval of time does not lie entirely before or after the series *)
Definition ivt_ok {F} (t : tfield F) (ivt : option (num * num)) : Prop :=
  match ivt with
  | None => True
  | Some (a, b) => tft t <> [] /\ (a <= last (tft t) (qz 0))%num /\ (nths (tft t) 0 <= b)%num
  end.
(** the grid is not empty and its axes increase *)
Definition grid_ok (g : grid) : Prop := grid_sorted g /\ ax g <> [] /\ ay g <> [].
Definition grid_ok2 (g : grid) : Prop := grid_sorted g /\ 2 <= length (ax g) /\ 2 <= length (ay g).

(** ** Averages.  The values available at a cell, in base units: one per frame that does not mask it *)
Definition avail (f : sfield) (i j : nat) : list num :=
  if at_ (msk f) i j then [] else match at_ (values f) i j with Some v => [(v * sc (uv f))%num] | None => [] end.
Definition availables (l : list sfield) (i j : nat) : list num := flat_map (fun f => avail f i j) l.
Definition vavail (comp : vfield -> arr onum) (f : vfield) (i j : nat) : list num :=
  if at_ (vmsk f) i j then [] else match at_ (comp f) i j with Some v => [(v * sc (vuv f))%num] | None => [] end.
Definition vavailables (comp : vfield -> arr onum) (l : list vfield) (i j : nat) : list num := flat_map (fun f => vavail comp f i j) l.
(** frames that can be averaged: on one grid, units of the same dimension, NaN exactly where masked *)
Definition sf_series_ok (t : tfield sfield) : Prop :=
  grid_ok2 (tfg t) /\ one_grid sf_ops t /\
  (forall f, In f (tff t) -> sf_wf f /\ sf_clean f /\ good_unit (uv f)) /\
  (forall f h, In f (tff t) -> In h (tff t) -> dim (uv f) = dim (uv h)).
Definition vf_clean (f : vfield) : Prop :=
  forall x y vx vy m, vf_shows f x y vx vy m -> (vx = None <-> m = true) /\ (vy = None <-> m = true).
Definition vf_series_ok (t : tfield vfield) : Prop :=
  grid_ok2 (tfg t) /\ one_grid vf_ops t /\
  (forall f, In f (tff t) -> vf_wf f /\ vf_clean f /\ good_unit (vuv f)) /\
  (forall f h, In f (tff t) -> In h (tff t) -> dim (vuv f) = dim (vuv h)).
(** [v] (in unit [u]) is the average of the base-unit values [l] *)
Definition average_of (l : list num) (u : unit_t) (v : onum) : Prop :=
  exists x, v = Some x /\ (x * sc u * qn (length l) = PointsSpec.total l)%num.

(** ** Interpolation and grouping *)
(** at cell (i, j), the field [f] lies on the segment between [f1] at time t1 and [f2] at time t2 *)
Definition cell_between (t1 t2 time : num) (f1 f2 f : sfield) (i j : nat) : Prop :=
  at_ (msk f) i j = orb (at_ (msk f1) i j) (at_ (msk f2) i j) /\
  match at_ (values f1) i j, at_ (values f2) i j with
  | Some a, Some b => exists v, at_ (values f) i j = Some v /\ on_line t1 t2 time (a * sc (uv f1)) (b * sc (uv f2)) (v * sc (uv f))
  | _, _ => at_ (values f) i j = None
  end.
Definition vcell_between (comp : vfield -> arr onum) (t1 t2 time : num) (f1 f2 f : vfield) (i j : nat) : Prop :=
  at_ (vmsk f) i j = orb (at_ (vmsk f1) i j) (at_ (vmsk f2) i j) /\
  match at_ (comp f1) i j, at_ (comp f2) i j with
  | Some a, Some b => exists v, at_ (comp f) i j = Some v /\ on_line t1 t2 time (a * sc (vuv f1)) (b * sc (vuv f2)) (v * sc (vuv f))
  | _, _ => at_ (comp f) i j = None
  end.
(** the frames number k*n .. k*n + n - 1 *)
Definition group {A} (n k : nat) (l : list A) : list A := firstn n (skipn (k * n) l).
(** at cell (i, j) the field is the average of a list of fields, masked where one of them is *)
Definition cell_average (l : list sfield) (f : sfield) (i j : nat) : Prop :=
  if existsb (fun h => at_ (msk h) i j) l then at_ (msk f) i j = true /\ at_ (values f) i j = None
  else at_ (msk f) i j = false /\ average_of (availables l i j) (uv f) (at_ (values f) i j).

(** the distance between two frames as a recurrence map counts it: the sum of the p-th powers of the differences of
    the values ([None] when one is NaN) *)
Fixpoint power (x : num) (p : nat) : num := match p with 0 => 1%num | S k => (x * power x k)%num end.
Definition power_sum (p : nat) (a b : list num) : num := PointsSpec.total (map (fun q => power (qabs (fst q - snd q)) p) (combine a b)).
(** node of an axis closest to a value (the last one in case of a tie) *)
Definition nearest_node (axe : list num) (v : num) (i : nat) : Prop :=
  i < length axe /\ (forall k, k < length axe -> (qabs (nths axe i - v) <= qabs (nths axe k - v))%num) /\
  (forall k, k < length axe -> qabs (nths axe k - v)%num = qabs (nths axe i - v)%num -> k <= i).
Definition on_axis (axe : list num) (v : num) : Prop := axe <> [] /\ (nths axe 0 <= v)%num /\ (v <= last axe (qz 0))%num.

(** cell by cell, [d] is [f] minus [m] *)
Definition minus_mean (f m d : sfield) : Prop :=
  sg d = sg f /\ uv d = uv f /\ sf_wf d /\
  forall i j, i < length (ax (sg f)) -> j < length (ay (sg f)) ->
    at_ (msk d) i j = orb (at_ (msk f) i j) (at_ (msk m) i j) /\
    (at_ (msk d) i j = false -> exists a b c, at_ (values f) i j = Some a /\ at_ (values m) i j = Some b /\ at_ (values d) i j = Some c /\
       (c * sc (uv f) = a * sc (uv f) - b * sc (uv m))%num).
(** no value of the list is NaN *)
Definition no_nan (l : list onum) (a : list num) : Prop := l = map Some a.
(** the sample of a time profile: the value of frame [f] at cell (i, j), NaN where it is masked *)
Definition time_sample {F} (ops : fops F) (comp : F -> arr onum) (i j : nat) (s : num * F) : num * onum * bool :=
  (fst s, (if at_ (o_mask ops (snd s)) i j then None else at_ (comp (snd s)) i j),
   (at_ (o_mask ops (snd s)) i j || match at_ (comp (snd s)) i j with None => true | Some _ => false end)%bool).
