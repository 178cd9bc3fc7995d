(** * FtleSpec: what the claims on displacements and Lyapunov exponents speak of. *)
From Coq Require Import Reals List Bool ZArith.
From Verif Require Import Res FtleModel.
Import ListNotations.
#[local] Open Scope R_scope.

Definition within (z : zone) (p : vec) : Prop := x0 z <= fst p <= x1 z /\ y0 z <= snd p <= y1 z.
(** [q] is reached from [p] in the time [t] by steps of the method, through places of the field, each of them of a time that is not negative *)
Inductive travels (z : zone) (vel : vec -> vec) (reverse : bool) (p : vec) : R -> vec -> Prop :=
| travels_start : travels z vel reverse p 0 p
| travels_step t q h : travels z vel reverse p t q -> within z q -> 0 <= h -> travels z vel reverse p (t + h) (new_xy vel reverse q h).
(** a linear map *)
Record matrix : Type := mkm { ma : R; mb : R; mc : R; md : R }.
Definition apply (l : matrix) (v : vec) : vec := (ma l * fst v + mb l * snd v, mc l * fst v + md l * snd v).
Definition affine (vel : vec -> vec) (w : vec) (l : matrix) : Prop := forall p, vel p = vadd w (apply l p).
(** the same map when the time is reversed *)
Definition oriented (reverse : bool) (l : matrix) : matrix := if reverse then mkm (- ma l) (- mb l) (- mc l) (- md l) else l.
(** c0 v + c1 L v + c2 L L v + ... *)
Fixpoint series (l : matrix) (cs : list R) (v : vec) : vec := match cs with [] => (0, 0) | c :: r => vadd (vscale c v) (series l r (apply l v)) end.
Definition backward (dt : R) : bool := if Rlt_dec dt 0 then true else false.
(** the points of the grid: [d] apart, the first ones at [d/2] of the sides *)
Definition grid_point (z : zone) (d : R) (i j : nat) : vec := (x0 z + d / 2 + INR i * d, y0 z + d / 2 + INR j * d).
(** [s] is the greatest factor by which the linear map with columns [a] and [b] stretches a vector, squared *)
Definition greatest_stretch2 (a b : vec) (s : R) : Prop :=
  (forall u, fst u ^ 2 + snd u ^ 2 = 1 -> vnorm (vadd (vscale (fst u) a) (vscale (snd u) b)) ^ 2 <= s) /\
  (exists u, fst u ^ 2 + snd u ^ 2 = 1 /\ vnorm (vadd (vscale (fst u) a) (vscale (snd u) b)) ^ 2 = s).
(** a field and resolutions that make sense *)
Definition regular (z : zone) (rx ry : R) : Prop := x0 z < x1 z /\ y0 z < y1 z /\ 0 <= rx /\ 0 <= ry.
(** the displaced points of the grid, when all the loops end *)
Definition displaced (z : zone) (vel : vec -> vec) (rx ry dt rel d : R) (moved : nat -> nat -> option vec) : Prop :=
  forall i j, (i < length (fst (points z rx ry)))%nat -> (j < length (snd (points z rx ry)))%nat ->
  exists f, moved_point z vel f dt rel d (nth i (fst (points z rx ry)) 0) (nth j (snd (points z rx ry)) 0) = Ok (Some (moved i j)).
(** the velocity (x^2, 0) and a field to look at it *)
Definition squares (p : vec) : vec := (fst p ^ 2, 0).
Definition long_zone : zone := mkzone 0 20 (-1) 1 1.
