(** * MirrorSpec: what a mirrored field is for its user *)
From Verif Require Import Num Res ListLib Arr FieldModel FieldSpec ScalarFieldModel VectorFieldModel BlModel MirrorModel.

(** the coordinate along the direction of the symmetry, and the image of a point by the plane at [p] *)
Definition coord (d : pdir) (x y : num) : num := match d with DX => x | DY => y end.
Definition image (d : pdir) (p x y : num) : num * num := match d with DX => (2 * p - x, y)%num | DY => (x, 2 * p - y)%num end.
(** the side of the plane that is kept is the one of the middle of the axis *)
Definition low_plane (A : list num) (p : num) : Prop := (2 * p < nths A 0 + last A (qz 0))%num.
Definition high_plane (A : list num) (p : num) : Prop := (nths A 0 + last A (qz 0) < 2 * p)%num.
Definition kept_side (A : list num) (p c : num) : Prop := (low_plane A p /\ (p <= c)%num) \/ (high_plane A p /\ (c <= p)%num).
(** the field without its masked border *)
Definition borderless (f g : sfield) : Prop :=
  crop_masked_border f false = Ok (Some g) \/ (crop_masked_border f false = Ok None /\ g = f).
(** [k] is the part of [g] that lies on the kept side *)
Definition kept_part (A : list num) (d : pdir) (p : num) (g k : sfield) : Prop :=
  sf_wf k /\ sf_clean k /\ grid_sorted (sg k) /\ ux (sg k) = ux (sg g) /\ uy (sg k) = uy (sg g) /\ uv k = uv g /\
  forall x y v m, sf_shows k x y v m <-> sf_shows g x y v m /\ kept_side A p (coord d x y).
(** the value the field [k] has at a point: NaN outside of its axes *)
Definition value_at (ci : sfield -> nat -> nat -> num -> num -> onum) (k : sfield) (q : num * num) (u : onum) : Prop :=
  (inside k (fst q) (snd q) /\ get_value ci k (fst q) (snd q) = Ok u) \/ (~ inside k (fst q) (snd q) /\ u = None).
Definition evenly (l : list num) : Prop := exists dl, (0 < dl)%num /\ axis_evenly l dl.
(** [r] is [k] with its images: every cell of [k] is in [r] as it was, and every other cell of [r] shows the value of [k] at
    the image of the cell, times the coefficient, and is masked when there is no such value *)
Definition with_images ci (d : pdir) (p coef : num) (k r : sfield) : Prop :=
  (forall x y v m, sf_shows k x y v m -> sf_shows r x y v m) /\
  (forall x y v m, sf_shows r x y v m -> ~ (In x (ax (sg k)) /\ In y (ay (sg k))) ->
     exists u, value_at ci k (image d p x y) u /\ v = oscale coef u /\ m = isnan v).

(** ** Vector fields.  One coefficient changes the sign of the component normal to the plane; two are for the two components *)
Definition vec_axis (f : vfield) (d : pdir) : list num := match d with DX => ax (vg f) | DY => ay (vg f) end.
Definition vec_coefs (d : pdir) (c : mcoef) : num * num :=
  match c with
  | COne a => match d with DX => (- a, a)%num | DY => (a, - a)%num end
  | CTwo a b => (a, b)
  end.

(** the masked cells of [f] are the whole rows strictly between the coordinates [a] and [b] *)
Definition band (f : sfield) (d : pdir) (a b : num) : Prop :=
  In a (pos_axis f d) /\ In b (pos_axis f d) /\ (exists c, In c (pos_axis f d) /\ (a < c)%num /\ (c < b)%num) /\
  forall x y v m, sf_shows f x y v m -> (m = true <-> (a < coord d x y)%num /\ (coord d x y < b)%num).

