(** * CellSpec: critical points inside the cells, independently of how they are computed. *)
From Coq Require Import Reals List.
From Verif Require Import PbiModel PbiSpec.
Import ListNotations.
#[local] Open Scope R_scope.

(** the velocity between the corners p, q (first row) and s, r (second row), at the fractions u of the columns and v of the rows *)
Definition bilinear (p q s r : R * R) (u v : R) : R * R :=
  ((1 - u) * (1 - v) * fst p + u * (1 - v) * fst q + (1 - u) * v * fst s + u * v * fst r,
   (1 - u) * (1 - v) * snd p + u * (1 - v) * snd q + (1 - u) * v * snd s + u * v * snd r).
(** the velocity interpolated in the cell of corners (i, j) and (i+1, j+1) *)
Definition interpolated (f : vf) (i j : nat) (u v : R) : R * R := bilinear (vel f (i, j)) (vel f (i, S j)) (vel f (S i, j)) (vel f (S i, S j)) u v.
(** it is null at the fractions (u, v) of the cell *)
Definition null_at (f : vf) (i j : nat) (u v : R) : Prop := 0 <= u <= 1 /\ 0 <= v <= 1 /\ interpolated f i j u v = (0, 0).
Definition a_cell (f : vf) (i j : nat) : Prop := (S i < rows f)%nat /\ (S j < cols f)%nat.
(** a cell found by get_cp_cell_position *)
Definition critical (f : vf) (i j : nat) : Prop := a_cell f i j /\ cell_index (ftheta f) i j <> 0.
(** no component is null at the corners of the cell, nor the sum of the two components *)
Definition plain_corners (f : vf) (i j : nat) : Prop :=
  forall a b, (a < 2)%nat -> (b < 2)%nat -> fvx f (i + a) (j + b) <> 0 /\ fvy f (i + a) (j + b) <> 0 /\ fvx f (i + a) (j + b) + fvy f (i + a) (j + b) <> 0.
(** how the velocity varies in the cell: p + u g_x + v g_y + u v g_xy *)
Definition minus (u v : R * R) : R * R := (fst u - fst v, snd u - snd v).
Definition g_x (f : vf) (i j : nat) : R * R := minus (vel f (i, S j)) (vel f (i, j)).
Definition g_y (f : vf) (i j : nat) : R * R := minus (vel f (S i, j)) (vel f (i, j)).
Definition g_xy (f : vf) (i j : nat) : R * R := minus (minus (vel f (S i, S j)) (vel f (S i, j))) (g_x f i j).
(** the velocity is not that of a linear field: g_xy is along neither g_x nor g_y *)
Definition bent (f : vf) (i j : nat) : Prop := cross (g_x f i j) (g_xy f i j) <> 0 /\ cross (g_y f i j) (g_xy f i j) <> 0.
(** the position at the fractions (u, v) of a cell *)
Definition place (f : vf) (i j : nat) (u v : R) : R * R := (fax f j + u * (fax f (S j) - fax f j), fay f i + v * (fay f (S i) - fay f i)).
Definition even_axes (f : vf) : Prop := exists dx dy, 0 < dx /\ 0 < dy /\ even_axis (cols f) (fax f) dx /\ even_axis (rows f) (fay f) dy.
(** the points of the second list are points of the first one, in the same order and with their types, moved by at most dx and dy *)
Inductive moved (dx dy : R) : list ((R * R) * nat) -> list ((R * R) * nat) -> Prop :=
| moved_nil : moved dx dy [] []
| moved_lost p t l m : moved dx dy l m -> moved dx dy ((p, t) :: l) m
| moved_kept p q t l m : Rabs (fst q - fst p) <= dx -> Rabs (snd q - snd p) <= dy -> moved dx dy l m -> moved dx dy ((p, t) :: l) ((q, t) :: m).
