(** * NormSpec: the norm of a field for its user. *)
From Coq Require Import Reals.
From Verif Require Import Num Res ListLib Arr FieldModel ScalarFieldModel VectorFieldModel FieldSpec VpropSpec CriterionModel.

(** the values shown by the field, one for each cell that is not masked *)
Definition shown_values (f : sfield) (l : list num) : Prop :=
  exists cs, NoDup cs /\ (forall c, In c cs <-> exists v, shows_at f c v) /\ Forall2 (shows_at f) cs l.
Definition vshows_at (f : vfield) (c : nat * nat) (v : num * num) : Prop :=
  fst c < length (ax (vg f)) /\ snd c < length (ay (vg f)) /\ at_ (vmsk f) (fst c) (snd c) = false /\
  at_ (cx f) (fst c) (snd c) = Some (fst v) /\ at_ (cy f) (fst c) (snd c) = Some (snd v).
Definition shown_vectors (f : vfield) (l : list (num * num)) : Prop :=
  exists cs, NoDup cs /\ (forall c, In c cs <-> exists v, vshows_at f c v) /\ Forall2 (vshows_at f) cs l.
(** every vector that is not masked has two components *)
Definition vectors_whole (f : vfield) : Prop :=
  forall i j, i < length (ax (vg f)) -> j < length (ay (vg f)) -> at_ (vmsk f) i j = false -> at_ (cx f) i j <> None /\ at_ (cy f) i j <> None.
Fixpoint rtotal (l : list R) : R := match l with [] => 0%R | a :: t => (a + rtotal t)%R end.
(** r is the p-th root of the sum of the p-th powers of the absolute values *)
Definition p_norm (p : nat) (l : list num) (r : R) : Prop :=
  (0 <= r)%R /\ (r ^ p = rtotal (map (fun v => Rabs (toR v) ^ p) l))%R.
(** [g] shows k times the values of [f] *)
Definition scaled_by (k : num) (f g : sfield) : Prop :=
  (forall c v, shows_at f c v -> shows_at g c (v * k)%num) /\ (forall c, (exists v, shows_at g c v) -> exists v, shows_at f c v).
(** [h] shows the sums of the values of [f] and [g], which are masked at the same cells *)
Definition sum_of (f g h : sfield) : Prop :=
  (forall c v w, shows_at f c v -> shows_at g c w -> shows_at h c (v + w)%num) /\
  (forall c, (exists v, shows_at h c v) <-> exists v, shows_at f c v) /\ (forall c, (exists v, shows_at f c v) <-> exists v, shows_at g c v).
