(** * Pts3Spec: what a user expects of the points ordered on a line, of the evolution along a trajectory and of the stream lines
    issued from oriented points. *)
From Coq Require Import Relations.
From Verif Require Import Num Res ListLib SortLib Arr FieldModel ScalarFieldModel ProfileModel ProfileSpec PointsModel TemporalModel Pts3Model.

Definition dflt_pt : num * num := (qz 0, qz 0).
(** the point number i of the set *)
Definition pt_of (p : points) (i : nat) : num * num := nth i (xy p) dflt_pt.
(** [nb i] are two nearest neighbours of the point i *)
Definition two_nearest (p : points) (nb : nat -> list nat) : Prop :=
  forall i, lt i (length (xy p)) ->
    length (nb i) = 2 /\ NoDup (nb i) /\ ~ In i (nb i) /\ (forall j, In j (nb i) -> lt j (length (xy p))) /\
    forall j k, In j (nb i) -> lt k (length (xy p)) -> k <> i -> ~ In k (nb i) ->
      (sqd (pt_of p i) (pt_of p j) <= sqd (pt_of p i) (pt_of p k))%num.
(** two points are linked when one is a nearest neighbour of the other *)
Definition linked (n : nat) (nb : nat -> list nat) (i j : nat) : Prop :=
  lt i n /\ lt j n /\ (In j (nb i) \/ In i (nb j)).
Definition joined (n : nat) (nb : nat -> list nat) : nat -> nat -> Prop := clos_refl_trans nat (linked n nb).
(** a traversal of the graph from each of its points: it starts there and goes once by each of the points that can be reached *)
Definition traversals (p : points) (nb : nat -> list nat) (paths : list (list nat)) : Prop :=
  length paths = length (xy p) /\
  forall i, lt i (length (xy p)) -> exists q,
    nth_error paths i = Some q /\ hd_error q = Some i /\ NoDup q /\ forall j, In j q <-> joined (length (xy p)) nb i j.
(** all points can be reached from all points *)
Definition connected (p : points) (nb : nat -> list nat) : Prop :=
  forall i j, lt i (length (xy p)) -> lt j (length (xy p)) -> joined (length (xy p)) nb i j.
(** sum of the squares of the steps of a broken line *)
Fixpoint line_cost (l : list (num * num)) : num :=
  match l with
  | a :: (b :: _) as r => (((fst a - fst b) * (fst a - fst b) + (snd a - snd b) * (snd a - snd b)) + line_cost r)%num
  | _ => 0%num
  end.
(** the points of the set in the order of a path *)
Definition along (p : points) (path : list nat) : list (num * num) := map (pt_of p) path.
(** the points with their values *)
Definition with_values (p : points) : list ((num * num) * num) := combine (xy p) (pv p).

(** the field of the collection for this time (the first one, if there are several) *)
Definition is_field_at (t : tfield sfield) (time : num) (f : sfield) : Prop :=
  exists k, nth_error (tft t) k = Some time /\ nth_error (tff t) k = Some f /\
            forall j, lt j k -> nth_error (tft t) j <> Some time.
(** y is the value of the field of the time of the point, at the place of the point *)
Definition value_on_path (ci : sfield -> nat -> nat -> num -> num -> onum) (t : tfield sfield) (q : (num * num) * num) (y : onum) : Prop :=
  exists f, is_field_at t (snd q) f /\ get_value ci f (fst (fst q)) (snd (fst q)) = Ok y.
(** what is wanted on the x axis of the evolution, for one point *)
Definition abscissa (a : option ptaxis) (q : (num * num) * num) : num :=
  match a with Some PtX => fst (fst q) | Some PtY => snd (fst q) | _ => snd q end.
Definition abscissa_unit (a : option ptaxis) (p : points) : unit_t :=
  match a with Some PtX => ptx p | Some PtY => pty p | _ => ptv p end.
(** one field per time *)
Definition times_ok (t : tfield sfield) : Prop := length (tft t) = length (tff t).

(** the lines given by get_streamlines *)
Definition lines_of (f : found) : list points := match f with One s => [s] | Many l => l end.
Definition flag_of (r : rev_arg) (k : nat) : option bool :=
  match r with RBool b => Some b | RTuple l => nth_error l k end.
(** the k-th direction of the i-th point *)
Definition direction_of (o : opoints) (i k : nat) (p d : num * num) : Prop :=
  nth_error (xy (opt o)) i = Some p /\ exists ds, nth_error (ori o) i = Some ds /\ nth_error ds k = Some d.
(** as many directions for all points *)
Definition rect_ori (o : opoints) (n : nat) : Prop :=
  length (ori o) = length (xy (opt o)) /\ Forall (fun ds => length ds = n) (ori o).
(** the cells of the field have sizes sx and sy *)
Definition cell_sizes (axe_x axe_y : list num) (sx sy : num) : Prop :=
  exists x0 x1 y0 y1, nth_error axe_x 0 = Some x0 /\ nth_error axe_x 1 = Some x1 /\
    nth_error axe_y 0 = Some y0 /\ nth_error axe_y 1 = Some y1 /\ sx = (x1 - x0)%num /\ sy = (y1 - y0)%num.
(** the places at a quarter of a cell from p along d, forwards ([s] = 1) or backwards ([s] = -1) *)
Definition quarter (sx sy s : num) (p d : num * num) : num * num :=
  (fst p + s * (fst d * sx) / qz 4, snd p + s * (snd d * sy) / qz 4)%num.
(** L is a line issued from the k-th direction of the i-th point: the point, then a line followed from one of the two places around it *)
Definition issued (lines : (num * num) -> (num * num) -> bool -> found) (sx sy : num) (o : opoints) (r : rev_arg) (L : points) : Prop :=
  exists i k p d b s, direction_of o i k p d /\ d <> (qz 0, qz 0) /\ flag_of r k = Some b /\
    In s (lines_of (lines (quarter sx sy (qz (-1)) p d) (quarter sx sy (qz 1) p d) b)) /\
    xy L = p :: xy s /\ pv L = [] /\ ptx L = ptx s /\ pty L = pty s /\ ptv L = ptv s.
