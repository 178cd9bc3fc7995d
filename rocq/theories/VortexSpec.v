(** * VortexSpec: what the properties of systems of vortices mean. *)
From Coq Require Import Reals Lra List ZArith Lia.
From Verif Require Import VortexModel.
Import ListNotations.
#[local] Open Scope R_scope.

(** sums of vectors *)
Definition vplus (p q : R * R) : R * R := (fst p + fst q, snd p + snd q).
Fixpoint vsum (l : list (R * R)) : R * R := match l with [] => (0, 0) | p :: r => vplus p (vsum r) end.
Fixpoint rsum (l : list R) : R := match l with [] => 0 | p :: r => p + rsum r end.

(** reflections in a wall of a point, of a velocity and of a vortex (which then turns the other way) *)
Definition mirror_pt (w : wall) (p : R * R) : R * R :=
  match w with WallX a => (2 * a - fst p, snd p) | WallY a => (fst p, 2 * a - snd p) end.
Definition mirror_vec (w : wall) (v : R * R) : R * R :=
  match w with WallX _ => (- fst v, snd v) | WallY _ => (fst v, - snd v) end.
Definition mirror_vortex (w : wall) (v : vortex) : vortex :=
  let p := mirror_pt w (vx0 v, vy0 v) in mkv (fst p) (snd p) (movable v) (- rot v) (vid v) (kind v).
Definition on_wall (w : wall) (p : R * R) : Prop := match w with WallX a => fst p = a | WallY a => snd p = a end.
Definition normal (w : wall) (v : R * R) : R := match w with WallX _ => fst v | WallY _ => snd v end.
Definition perpendicular (w w' : wall) : Prop := match w, w' with WallX _, WallY _ | WallY _, WallX _ => True | _, _ => False end.

(** a vortex with all its reflections: each wall in turn doubles the set *)
Definition reflections (ws : list wall) (v : vortex) : list vortex :=
  fold_left (fun l w => l ++ map (mirror_vortex w) l) ws [v].
(** the velocity it induces with its reflections *)
Definition induced (ws : list wall) (v : vortex) (x y : R) : R * R :=
  vsum (map (fun u => v_vector u x y) (reflections ws v)).

(** the kinds whose velocity is the same all around the centre *)
Definition axisymmetric (k : vkind) : Prop :=
  match k with Hill _ _ | LambChaplygin _ _ _ _ _ _ => False | Rankine _ rv => 0 <= rv | _ => True end.

(** distance to the centre, and the radial and azimuthal parts of a velocity multiplied by it *)
Definition dist (x0 y0 x y : R) : R := sqrt ((x - x0) * (x - x0) + (y - y0) * (y - y0)).
Definition radial (x0 y0 x y : R) (v : R * R) : R := (x - x0) * fst v + (y - y0) * snd v.
Definition swirl (x0 y0 x y : R) (v : R * R) : R := (x - x0) * snd v - (y - y0) * fst v.
Definition speed (v : R * R) : R := sqrt (fst v * fst v + snd v * snd v).

(** the signed strength of a free vortex *)
Definition circulation (v : vortex) : R := match kind v with Free g => g * IZR (rot v) | _ => 0 end.
Definition is_free (v : vortex) : Prop := match kind v with Free _ => True | _ => False end.

(** the systems reached by a history *)
Definition reached (h : list vop) : vsys := fold_left vstep h s_new.

(** what a vortex is, its id aside *)
Definition body (v : vortex) : R * R * bool * Z * vkind := (vx0 v, vy0 v, movable v, rot v, kind v).
(** the operations that remove *)
Definition is_remove (o : vop) : bool := match o with VRemove _ => true | _ => false end.
(** free vortices that may all move, without walls nor custom fields *)
Definition free_system (s : vsys) : Prop :=
  walls s = [] /\ cfields s = [] /\ Forall (fun v => is_free v /\ movable v = true) (vorts s).
(** the weighted positions along a trajectory *)
Definition weighted (w : list R) (ps : list (R * R)) : R * R :=
  vsum (map (fun c => (fst c * fst (snd c), fst c * snd (snd c))) (combine w ps)).
(** a vortex placed elsewhere *)
Definition moved_to (v : vortex) (x y : R) : vortex := mkv x y (movable v) (rot v) (vid v) (kind v).
