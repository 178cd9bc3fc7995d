(** * StreamSpec: what the claims on stream lines speak of. *)
From Coq Require Import Reals List Bool ZArith.
From Verif Require Import Res StreamModel.
Import ListNotations.
#[local] Open Scope R_scope.

Definition inside (e : extent) (p : pt) : Prop := xa e <= fst p <= xb e /\ ya e <= snd p <= yb e.
(** the extent of a field *)
Definition proper (e : extent) : Prop := xa e < xb e /\ ya e < yb e.
(** the lines of a result, in order *)
Definition all_lines (r : lines) : list (list (pt * option R)) := match r with Single l => [l] | Several ls => ls end.
Definition dist (a b : pt) : R := sqrt ((fst b - fst a) ^ 2 + (snd b - snd a) ^ 2).
(** each point and the next one satisfy the relation *)
Fixpoint chain {A} (P : A -> A -> Prop) (l : list A) : Prop := match l with a :: ((b :: _) as r) => P a b /\ chain P r | _ => True end.
(** [v] is [u] times a positive number *)
Definition same_way (u v : R * R) : Prop := exists k, 0 < k /\ fst v = k * fst u /\ snd v = k * snd u.
Definition opposite (v : R * R) : R * R := (- fst v, - snd v).
Definition dot (u v : R * R) : R := fst u * fst v + snd u * snd v.
(** a dimensionless velocity as a velocity in the coordinates of the field *)
Definition stretched (e : extent) (v : R * R) : R * R := ((xb e - xa e) * fst v, (yb e - ya e) * snd v).
(** the line has come back near one of its points, at [i] *)
Definition back (delta : R) (s : list pt) (i : nat) : Prop :=
  (15 <= i)%nat /\ exists j, (j + 10 <= i)%nat /\ (fst (nth_pt s j) - fst (nth_pt s i)) ^ 2 + (snd (nth_pt s j) - snd (nth_pt s i)) ^ 2 < delta ^ 2 / 2.
