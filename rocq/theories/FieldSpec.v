(** * FieldSpec: what a field is for its user.
    A field is a set of samples: at position (x, y) there is a value and a mask flag.
    These definitions use only the axes and the arrays the API exposes. *)
From Verif Require Import Num Res ListLib Arr FieldModel ScalarFieldModel VectorFieldModel.

(** [v] is stored at position (x, y) of an array laid on the axes X, Y *)
Definition at_pos {A} (X Y : list num) (a : arr A) (x y : num) (v : A) : Prop :=
  exists i j, nth_error X i = Some x /\ nth_error Y j = Some y /\ at_ a i j = v.

(** a scalar field shows value [v] (NaN is [None]) and mask flag [m] at (x, y) *)
Definition sf_shows (f : sfield) (x y : num) (v : onum) (m : bool) : Prop :=
  exists i j, nth_error (ax (sg f)) i = Some x /\ nth_error (ay (sg f)) j = Some y /\
              at_ (values f) i j = v /\ at_ (msk f) i j = m.
(** a vector field shows components [vx], [vy] and mask flag [m] at (x, y) *)
Definition vf_shows (f : vfield) (x y : num) (vx vy : onum) (m : bool) : Prop :=
  exists i j, nth_error (ax (vg f)) i = Some x /\ nth_error (ay (vg f)) j = Some y /\
              at_ (cx f) i j = vx /\ at_ (cy f) i j = vy /\ at_ (vmsk f) i j = m.

Definition has_shape {A} (a : arr A) (n m : nat) : Prop := d0 a = n /\ d1 a = m.
(** the consistency required by check_consistency (field.py:133-153 and subclasses) *)
Definition sf_wf (f : sfield) : Prop :=
  has_shape (raw f) (length (ax (sg f))) (length (ay (sg f))) /\
  has_shape (msk f) (length (ax (sg f))) (length (ay (sg f))).
Definition vf_wf (f : vfield) : Prop :=
  has_shape (cx f) (length (ax (vg f))) (length (ay (vg f))) /\
  has_shape (cy f) (length (ax (vg f))) (length (ay (vg f))) /\
  has_shape (vmsk f) (length (ax (vg f))) (length (ay (vg f))).
Definition grid_sorted (g : grid) : Prop := increasing (ax g) /\ increasing (ay g).

(** two scalar fields cannot be told apart by axes, units, values and mask *)
Definition sf_same (f h : sfield) : Prop :=
  ax (sg f) = ax (sg h) /\ ay (sg f) = ay (sg h) /\ ux (sg f) = ux (sg h) /\ uy (sg f) = uy (sg h) /\
  uv f = uv h /\ aeq (values f) (values h) /\ aeq (msk f) (msk h).
Definition vf_same (f h : vfield) : Prop :=
  ax (vg f) = ax (vg h) /\ ay (vg f) = ay (vg h) /\ ux (vg f) = ux (vg h) /\ uy (vg f) = uy (vg h) /\
  vuv f = vuv h /\ aeq (cx f) (cx h) /\ aeq (cy f) (cy h) /\ aeq (vmsk f) (vmsk h).

(** rotation of the plane by k quarter turns *)
Fixpoint turn (k : nat) (p : num * num) : num * num :=
  match k with 0 => p | S k' => let (x, y) := turn k' p in (- y, x)%num end.
Definition oturn1 (p : onum * onum) : onum * onum := (option_map Qcopp (snd p), fst p).
Fixpoint oturn (k : nat) (p : onum * onum) : onum * onum :=
  match k with 0 => p | S k' => oturn1 (oturn k' p) end.

Definition good_unit (u : unit_t) : Prop := (0 < sc u)%num.

(** NaN exactly where masked *)
Definition sf_clean (f : sfield) : Prop :=
  forall x y v m, sf_shows f x y v m -> (v = None <-> m = true).
Definition oeq_phys (a : onum) (u : unit_t) (b : onum) (w : unit_t) : Prop :=
  match a, b with
  | Some x, Some y => (x * sc u)%num = (y * sc w)%num
  | None, None => True
  | _, _ => False
  end.
(** the sign of a scale argument *)
Definition osign (s : num) (v : onum) : onum := if qltb s 0%num then option_map Qcopp v else v.
(** an index interval argument designates the positions lo..hi of an axis of n points *)
Definition designates (n : nat) (iv : option (Z * Z)) (lo hi : nat) : Prop :=
  match iv with
  | None => lo = 0 /\ n = hi + 1
  | Some (a, b) => a = Z.of_nat lo /\ b = Z.of_nat hi /\ lo <= hi /\ hi < n
  end.
Definition axis_evenly (l : list num) (d : num) : Prop := forall i, S i < length l -> (nths l (S i) - nths l i)%num = d.

(** f' is a contiguous part of f: same coordinates, values and mask from the cell (x0, y0) on *)
Definition subgrid (f f' : sfield) : Prop :=
  exists x0 y0,
    (forall i, i < length (ax (sg f')) -> nth_error (ax (sg f')) i = nth_error (ax (sg f)) (x0 + i)) /\
    (forall j, j < length (ay (sg f')) -> nth_error (ay (sg f')) j = nth_error (ay (sg f)) (y0 + j)) /\
    (forall i j, i < length (ax (sg f')) -> j < length (ay (sg f')) ->
       at_ (values f') i j = at_ (values f) (x0 + i) (y0 + j) /\ at_ (msk f') i j = at_ (msk f) (x0 + i) (y0 + j)).
(** an axis given in increasing or decreasing order *)
Definition monotone (l : list num) : Prop := increasing l \/ increasing (rev l).

(** ** Crop *)
(** *** C04: crop in axis units *)
Definition in_iv (iv : option (num * num)) (x : num) : Prop :=
  match iv with None => True | Some (a, b) => (a <= x)%num /\ (x <= b)%num end.
(** the interval does not lie entirely on one side of the axis, and is not decreasing *)
Definition iv_ok (axe : list num) (iv : option (num * num)) : Prop :=
  match iv with
  | None => True
  | Some (a, b) => (a <= b)%num /\ (nths axe 0 <= b)%num /\ (a <= last axe (qz 0))%num
  end.
Definition iv_ok2 (g : grid) (ivx ivy : option (num * num)) : Prop := iv_ok (ax g) ivx /\ iv_ok (ay g) ivy.

(** ** Scale, rotation *)
(** ** C10: scale *)
Definition nonzero (a : sarg) : Prop := sfact a <> 0%num.
(** a vector whose two components are both present or both NaN (kept by the class: import and mask) *)
Definition both_nan (a b : onum) : Prop := (a = None <-> b = None).
Definition vf_nan_ok (f : vfield) : Prop :=
  forall i j, i < length (ax (vg f)) -> j < length (ay (vg f)) -> both_nan (at_ (cx f) i j) (at_ (cy f) i j).

(** ** Values and mask, arithmetic, import, interpolation *)
(** ** C13: values and mask *)
Definition cell_in (f : sfield) (i j : nat) : Prop := i < length (ax (sg f)) /\ j < length (ay (sg f)).
(** what the user last assigned to .values *)
Fixpoint last_assigned (f0 : arr onum) (g : grid) (ops : list sop) : arr onum :=
  match ops with
  | [] => f0
  | OpValues v :: r => last_assigned (if shape_is v g then v else f0) g r
  | _ :: r => last_assigned f0 g r
  end.
(** no mask assignment un-hides a masked cell *)
Fixpoint never_reveals (f : sfield) (ops : list sop) : Prop :=
  match ops with
  | [] => True
  | o :: r =>
    (match o with
     | OpMask m => shape_is m (sg f) = true -> forall i j, cell_in f i j -> at_ (msk f) i j = true -> at_ m i j = true
     | OpMaskBool b => b = true \/ forall i j, cell_in f i j -> at_ (msk f) i j = false
     | _ => True
     end) /\ never_reveals (sstep f o) r
  end.
(** the physical sum of two values in unit [u] *)
Definition osum_phys (v : onum) (u : unit_t) (a : onum) (ua : unit_t) (b : onum) (ub : unit_t) : Prop :=
  match a, b with
  | Some x, Some y => exists z, v = Some z /\ (z * sc u = x * sc ua + y * sc ub)%num
  | _, _ => v = None
  end.
Definition compatible (f h : sfield) : Prop :=
  dim (uv f) = dim (uv h) /\ dim (ux (sg f)) = dim (ux (sg h)) /\ dim (uy (sg f)) = dim (uy (sg h)).
Definition quotient (v a b : onum) : Prop :=
  match a, b with
  | Some x, Some y => y <> 0%num /\ exists z, v = Some z /\ (z * y)%num = x
  | _, _ => False
  end.
(** what the caller gave at (x, y): value and effective mask *)
Definition given (x y : list num) (v : arr onum) (m : option (arr bool)) (px py : num) (a : onum) (b : bool) : Prop :=
  exists i j, nth_error x i = Some px /\ nth_error y j = Some py /\
    b = orb (match m with None => false | Some mm => at_ mm i j end) (isnan (at_ v i j)) /\
    a = (if b then None else at_ v i j).
Definition inside (f : sfield) (x y : num) : Prop :=
  (nths (ax (sg f)) 0 <= x)%num /\ (x <= last (ax (sg f)) (qz 0))%num /\
  (nths (ay (sg f)) 0 <= y)%num /\ (y <= last (ay (sg f)) (qz 0))%num.
(** linear interpolation between a and b *)
Definition on_line (p1 p2 p a b r : num) : Prop := (r * (p2 - p1) = a * (p2 - p) + b * (p - p1))%num.

(** the axis l' is l with nlo points added below and nhi above, continuing the first and last steps *)
Definition axis_extends (l l' : list num) (nlo nhi : nat) : Prop :=
  length l' = nlo + length l + nhi /\ increasing l' /\
  (forall i, i < nlo -> nths l' i = (nths l 0 - (qn nlo - qn i) * (nths l 1 - nths l 0))%num) /\
  (forall i, i < length l -> nth_error l' (nlo + i) = nth_error l i) /\
  (forall i, i < nhi -> nths l' (nlo + length l + i) =
      (nths l (length l - 1) + (qn i + 1) * (nths l (length l - 1) - nths l (length l - 2)))%num).
(** k quarter turns, k any integer *)
Definition turns (k : Z) (p : num * num) : num * num := turn (Z.to_nat (k mod 4)) p.
Definition oturns (k : Z) (p : onum * onum) : onum * onum := oturn (Z.to_nat (k mod 4)) p.
(** the axis a direction argument designates *)
Definition axis_of (g : grid) (direction : Z) : list num := if (direction =? 1)%Z then ax g else ay g.
