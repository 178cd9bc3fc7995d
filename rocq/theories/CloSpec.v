(** * CloSpec: the vocabulary of C308 to C314. *)
From Verif Require Import Num Res ListLib SortLib Arr FieldModel ScalarFieldModel VectorFieldModel FieldSpec ProfileModel ProfileSpec Prof2Model Prof2Spec CloModel.

(** the arrays of the field have a line for each y and a column for each x *)
Definition rect {A} (x y : list num) (a : list (list A)) : Prop := length a = length y /\ Forall (fun r => length r = length x) a.
Definition vfa_ok (f : vfa) : Prop :=
  rect (a_x f) (a_y f) (a_vx f) /\ rect (a_x f) (a_y f) (a_vy f) /\ rect (a_x f) (a_y f) (a_mask f) /\ rect (a_x f) (a_y f) (a_theta f).
(** the cells of an array, with their positions *)
Definition cells {A} (x y : list num) (a : list (list A)) : list (num * num * A) :=
  flat_map (fun r : num * list A => map (fun c : num * A => (fst c, fst r, snd c)) (combine x (snd r))) (combine y a).
(** v is at less than d of c *)
Definition closer (c d v : num) : bool := qltb (qabs (v - c)) d.
(** half of n, rounded up, times the first step of the axis *)
Definition reach (axe : list num) (n : nat) (d : num) : Prop := exists k, (n = 2 * k \/ n + 1 = 2 * k) /\ d = (qn k * (nths axe 1 - nths axe 0))%num.
(** the axis of n values from x0 with the step h *)
Definition even_axis (x0 h : num) (n : nat) : list num := map (fun i => (x0 + qn i * h)%num) (seq 0 n).
(** what is left of the sample when the smoothed one is removed *)
Definition residual (st : sample * sample) : onum := match sy (fst st), sy (snd st) with Some a, Some b => Some (a - b)%num | _, _ => None end.
(** the known values of a list *)
Fixpoint known (l : list onum) : list num := match l with [] => [] | Some v :: r => v :: known r | None :: r => known r end.
(** the smoothing keeps the abscissae and the units, and gives a profile *)
Definition smooths (smooth : profile -> res profile) (p s : profile) : Prop :=
  smooth p = Ok s /\ prof_ok s /\ prof_clean s /\ px s = px p /\ pux s = pux p /\ puy s = puy p.
(** every cell that is not masked is known *)
Definition all_shown (f : vfield) : Prop :=
  forall i j, i < length (ax (vg f)) -> j < length (ay (vg f)) -> at_ (vmsk f) i j = false -> at_ (cx f) i j <> None /\ at_ (cy f) i j <> None.
