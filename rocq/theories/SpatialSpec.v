(** * SpatialSpec: what a set of fields is for its user. *)
From Coq Require Import Permutation.
From Verif Require Import Num Res ListLib Arr FieldModel ScalarFieldModel VectorFieldModel FieldSpec SpatialModel.

(** the shown value is V at (X, Y), all three in the base units *)
Definition sf_content (f : sfield) (X Y V : num) : Prop :=
  exists x y v, sf_shows f x y (Some v) false /\ X = (x * sc (ux (sg f)))%num /\ Y = (y * sc (uy (sg f)))%num /\ V = (v * sc (uv f))%num.
Definition vf_content (f : vfield) (X Y V W : num) : Prop :=
  exists x y v w, vf_shows f x y (Some v) (Some w) false /\ X = (x * sc (ux (vg f)))%num /\ Y = (y * sc (uy (vg f)))%num /\
    V = (v * sc (vuv f))%num /\ W = (w * sc (vuv f))%num.
(** NaN exactly where masked, for both components *)
Definition vf_tidy (f : vfield) : Prop :=
  forall x y v w m, vf_shows f x y v w m -> (v = None <-> m = true) /\ (w = None <-> m = true).
Definition good_units (u : unit_t * unit_t * unit_t) : Prop :=
  let '(a, b, c) := u in good_unit a /\ good_unit b /\ good_unit c.
(** a mask over n x m cells that hides nothing, or shows something off the first line and off the first column *)
Definition shows_enough (n m : nat) (k : arr bool) : Prop :=
  (0 < n /\ 0 < m /\ forall i j, i < n -> j < m -> at_ k i j = false) \/
  ((exists i j, 0 < i < n /\ j < m /\ at_ k i j = false) /\ (exists i j, i < n /\ 0 < j < m /\ at_ k i j = false)).
Definition sf_addable (f : sfield) : Prop :=
  sf_wf f /\ sf_clean f /\ grid_sorted (sg f) /\ good_units (ux (sg f), uy (sg f), uv f) /\
  shows_enough (length (ax (sg f))) (length (ay (sg f))) (msk f).
Definition vf_addable (f : vfield) : Prop :=
  vf_wf f /\ vf_tidy f /\ grid_sorted (vg f) /\ good_units (ux (vg f), uy (vg f), vuv f) /\
  shows_enough (length (ax (vg f))) (length (ay (vg f))) (vmsk f).
(** no border of the n x m cells is wholly masked *)
Definition tight (n m : nat) (k : arr bool) : Prop :=
  (exists j, j < m /\ at_ k 0 j = false) /\ (exists j, j < m /\ at_ k (n - 1) j = false) /\
  (exists i, i < n /\ at_ k i 0 = false) /\ (exists i, i < n /\ at_ k i (m - 1) = false).

(** the units have the same dimensions *)
Definition compatible (u w : unit_t * unit_t * unit_t) : Prop :=
  let '(a, b, c) := u in let '(a', b', c') := w in dim a = dim a' /\ dim b = dim b' /\ dim c = dim c'.

(** x lies strictly between two points of the axis *)
Definition between (axe : list num) (x : num) : Prop := exists p q, In p axe /\ In q axe /\ (p < x)%num /\ (x < q)%num.
(** the point lies inside the area of the field *)
Definition covers (g : grid) (x y : num) : Prop := between (ax g) x /\ between (ay g) y.
(** the mean of values, NaN as soon as one is NaN *)
Definition mean_is (vs : list onum) (r : onum) : Prop :=
  (exists ws, vs = map Some ws /\ exists m, r = Some m /\ (m * qn (length ws))%num = Num.qsum ws) \/ (In None vs /\ r = None).
(** the fields of l are those of [inter], which cover the point, and those of [out], which do not *)
Definition sorted_out {F} (grid_of : F -> grid) (l : list F) (x y : num) (inter out : list F) : Prop :=
  Permutation l (inter ++ out) /\ Forall (fun f => covers (grid_of f) x y) inter /\ Forall (fun f => ~ covers (grid_of f) x y) out.
