(** * AsciiSpec: what a text file says.
    A table is read line by line: the coordinates and the values are in numbered columns (from 1). *)
From Verif Require Import Num Res ListLib Arr FieldModel ScalarFieldModel VectorFieldModel FieldSpec ProfileModel PointsModel AsciiModel.

(** [v] is the number in column [k] of the row [r] *)
Definition cell (r : list onum) (k : nat) (v : onum) : Prop := 1 <= k /\ nth_error r (k - 1) = Some v.
(** the row [r] gives this point: x, y and one or two values *)
Definition gives1 (xc yc vc : nat) (r : list onum) (p : num * num * onum) : Prop :=
  cell r xc (Some (fst (fst p))) /\ cell r yc (Some (snd (fst p))) /\ cell r vc (snd p).
Definition gives2 (xc yc vxc vyc : nat) (r : list onum) (p : num * num * (onum * onum)) : Prop :=
  cell r xc (Some (fst (fst p))) /\ cell r yc (Some (snd (fst p))) /\ cell r vxc (fst (snd p)) /\ cell r vyc (snd (snd p)).
(** the file gives these points, one by line that is not a comment, in this order *)
Inductive lists {A} (gives : list onum -> A -> Prop) : list line -> list A -> Prop :=
| lists_nil : lists gives [] []
| lists_comment : forall f l, lists gives f l -> lists gives (Comment :: f) l
| lists_row : forall r p f l, gives r p -> lists gives f l -> lists gives (Row r :: f) (p :: l).
(** every line has n columns *)
Definition regular (f : list line) (n : nat) : Prop := forall r, In (Row r) f -> length r = n.

(** the points of a grid listed column after column (x constant), or line after line (y constant) *)
Definition by_columns {V} (X Y : list num) (val : num -> num -> V) : list (num * num * V) :=
  flat_map (fun x => map (fun y => (x, y, val x y)) Y) X.
Definition by_lines {V} (X Y : list num) (val : num -> num -> V) : list (num * num * V) :=
  flat_map (fun y => map (fun x => (x, y, val x y)) X) Y.

(** the field has these axes and units, and shows at each point the value given by [val], masked when it is NaN *)
Definition sf_table (g : sfield) (X Y : list num) (val : num -> num -> onum) (u w z : unit_t) : Prop :=
  ax (sg g) = X /\ ay (sg g) = Y /\ ux (sg g) = u /\ uy (sg g) = w /\ uv g = z /\ sf_wf g /\
  forall x y, In x X -> In y Y -> sf_shows g x y (val x y) (isnan (val x y)).

(** the last point of the list at (x, y) has the value v; no point of the list is at (x, y) *)
Definition last_at {V} (l : list (num * num * V)) (x y : num) (v : V) : Prop :=
  exists a b, l = a ++ (x, y, v) :: b /\ forall v', ~ In (x, y, v') b.
Definition nothing_at {V} (l : list (num * num * V)) (x y : num) : Prop := forall v, ~ In (x, y, v) l.
Definition x_in {V} (l : list (num * num * V)) (x : num) : Prop := exists y v, In (x, y, v) l.
Definition y_in {V} (l : list (num * num * V)) (y : num) : Prop := exists x v, In (x, y, v) l.
Definition two_x {V} (l : list (num * num * V)) : Prop := exists a b, x_in l a /\ x_in l b /\ a <> b.
Definition two_y {V} (l : list (num * num * V)) : Prop := exists a b, y_in l a /\ y_in l b /\ a <> b.

(** numpy's notion of closeness *)
Definition tol (b : num) : num := (qq 1 100000000 + qq 1 100000 * qabs b)%num.
(** the mean of the abscissae of the i-th group of m consecutive points; of the points of rank i modulo m (k of them) *)
Definition group_mean {V} (l : list (num * num * V)) (m i : nat) : num :=
  (Num.qsum (map (fun j => nths (map (fun p => fst (fst p)) l) (i * m + j)%nat) (seq 0 m)) / qn m)%num.
Definition stride_mean {V} (l : list (num * num * V)) (m k i : nat) : num :=
  (Num.qsum (map (fun j => nths (map (fun p => fst (fst p)) l) (j * m + i)%nat) (seq 0 k)) / qn k)%num.
(** for some column, the mean of the group that should be this column is not its abscissa *)
Definition not_by_columns {V} (l : list (num * num * V)) (X Y : list num) : Prop :=
  exists i, i < length X /\ (tol (nths X i) < qabs (group_mean l (length Y) i - nths X i))%num.
Definition not_by_lines {V} (l : list (num * num * V)) (X Y : list num) : Prop :=
  exists i, i < length X /\ (tol (nths X i) < qabs (stride_mean l (length X) (length Y) i - nths X i))%num.
(** the first step of the axis, divided by the number of lines, is larger than the tolerance *)
Definition apart (X Y : list num) : Prop := (tol (nths X 0) * qn (length Y) < nths X 1 - nths X 0)%num.

(** NaN exactly where masked, for a vector field *)
Definition vf_nan_masked (f : vfield) : Prop :=
  forall x y vx vy m, vf_shows f x y vx vy m -> (vx = None <-> m = true) /\ (vy = None <-> m = true).
