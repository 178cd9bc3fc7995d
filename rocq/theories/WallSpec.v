(** * WallSpec: vocabulary of the theorems about the extrapolation until a wall *)
From Verif Require Import Num Res ListLib Arr FieldModel ScalarFieldModel VectorFieldModel FieldSpec GradModel GradSpec WallModel.

(** the coordinate across the wall, and along it *)
Definition across (d : wdir) (x y : num) : num := match d with WX => x | _ => y end.
Definition along_axis (d : wdir) (g : grid) : list num := match d with WX => ay g | _ => ax g end.
Definition first_of (l : list num) : num := nths l 0.
Definition last_of (l : list num) : num := nths l (length l - 1).
Definition first_step (l : list num) : num := (nths l 1 - nths l 0)%num.
(** the side on which the wall is put *)
Definition end_of (low : bool) (l : list num) : num := if low then first_of l else last_of l.
Definition is_dir (d : wdir) : Prop := d = WX \/ d = WY.
Definition is_kind (k : fkind) : Prop := k = FLinear \/ k = FCubic.
(** the grid [g'] is [g] with [n] lines added across the wall, on the given side, continuing the steps of the axis *)
Definition grown (d : wdir) (low : bool) (n : nat) (g g' : grid) : Prop :=
  axis_extends (waxis d g) (waxis d g') (if low then n else 0) (if low then 0 else n) /\ along_axis d g' = along_axis d g /\
  ux g' = ux g /\ uy g' = uy g.
(** the nearest neighbour interpolator gives a number as soon as there is a datum *)
Definition nearest_ok (nearest : interps) : Prop :=
  forall h i j, (exists x y v, sf_shows h x y (Some v) false) -> nearest h i j <> None.
(** [h] is the field with a null wall at the coordinate [w], and nothing known where the field was not *)
Definition sf_walled (d : wdir) (w : num) (f h : sfield) : Prop :=
  forall x y v m, sf_shows h x y v m ->
    (across d x y = w -> v = Some 0%num /\ m = false) /\
    (across d x y <> w -> In x (ax (sg f)) -> In y (ay (sg f)) -> sf_shows f x y v m) /\
    (across d x y <> w -> ~ (In x (ax (sg f)) /\ In y (ay (sg f))) -> v = None /\ m = true).
(** [f'] is [h] with its masked cells interpolated, and by the nearest value where the interpolator gives none *)
Definition sf_filled (nearest w : interps) (h f' : sfield) : Prop :=
  sg f' = sg h /\ forall i j, i < length (ax (sg h)) -> j < length (ay (sg h)) ->
    at_ (msk f') i j = false /\
    at_ (values f') i j = if at_ (msk h) i j then or_else (w h i j) (nearest h i j) else at_ (values h) i j.
(** an axis of constant step *)
Definition even_axis (l : list num) (h : num) : Prop := (0 < h)%num /\ forall i, i < length l -> nths l i = (first_of l + qn i * h)%num.
(** the same for a vector field *)
Definition vf_walled (d : wdir) (w : num) (f h : vfield) : Prop :=
  forall x y vx vy m, vf_shows h x y vx vy m ->
    (across d x y = w -> vx = Some 0%num /\ vy = Some 0%num /\ m = false) /\
    (across d x y <> w -> In x (ax (vg f)) -> In y (ay (vg f)) -> vf_shows f x y vx vy m) /\
    (across d x y <> w -> ~ (In x (ax (vg f)) /\ In y (ay (vg f))) -> m = true).
(** each component is interpolated apart, where the field is masked or the component is not a number *)
Definition vf_filled (nearest w : interps) (h f' : vfield) : Prop :=
  vg f' = vg h /\ exists sx sy, comp_x_sf h = Ok sx /\ comp_y_sf h = Ok sy /\
  forall i j, i < length (ax (vg h)) -> j < length (ay (vg h)) ->
    at_ (vmsk f') i j = false /\
    at_ (msk sx) i j = (at_ (vmsk h) i j || isnan (at_ (cx h) i j))%bool /\ at_ (msk sy) i j = (at_ (vmsk h) i j || isnan (at_ (cy h) i j))%bool /\
    at_ (cx f') i j = (if at_ (msk sx) i j then or_else (w sx i j) (nearest sx i j) else at_ (cx h) i j) /\
    at_ (cy f') i j = (if at_ (msk sy) i j then or_else (w sy i j) (nearest sy i j) else at_ (cy h) i j).
