(** * VposSpec: the vortices a criterion shows. *)
From Verif Require Import Num Res ListLib SortLib Arr FieldModel ScalarFieldModel VectorFieldModel FieldSpec PointsModel VpropSpec CritModel Sf2Spec.

(** cells where the criterion reaches the threshold, to a hundred thousandth of it: positive values, and negative ones *)
Definition nearly (t : num) : num := (t - t * qq 1 100000)%num.
Definition reaches_up (s : sfield) (t : num) (c : nat * nat) : Prop := exists v, shows_at s c v /\ (nearly t <= v)%num.
Definition reaches_down (s : sfield) (t : num) (c : nat * nat) : Prop := exists v, shows_at s c v /\ (v <= - nearly t)%num.
(** the mean position of the cells of a zone, weighted by the absolute values *)
Definition weighted_centre (s : sfield) (z : list (nat * nat)) (p : num * num) : Prop :=
  (fst p * cell_sum s (fun _ v => qabs v) z = cell_sum s (fun c v => qabs v * cell_x s c) z /\
   snd p * cell_sum s (fun _ v => qabs v) z = cell_sum s (fun c v => qabs v * cell_y s c) z)%num.
(** one point per zone, on the axes of the field; nothing when there is no zone *)
Definition centres_of (s : sfield) (P : nat * nat -> Prop) (o : option points) : Prop :=
  exists zones l, are_zones P zones /\ Forall2 (weighted_centre s) zones l /\
    match o with None => l = [] | Some p => xy p = l /\ l <> [] /\ ptx p = ux (sg s) /\ pty p = uy (sg s) end.
(** the threshold asked: relative to the greatest absolute value m, or absolute *)
Definition level (rel : bool) (threshold m : num) : num := if rel then (threshold * m)%num else threshold.
