(** * RecoSpec: words for the properties of reconstruct_from_gradients *)
From Coq Require Import Reals List Bool Arith.
From Verif Require Import Res RecoModel.
Import ListNotations.
#[local] Open Scope R_scope.

(** coordinates from [a], [h] apart *)
Definition evenly (a h : R) (l : list R) : Prop := forall k, (k < length l)%nat -> nth k l 0 = a + INR k * h.
(** the trapezoid rule with the gradients gives the differences of [w] between neighbours *)
Definition trapezoids (n m : nat) (dx dy : R) (gx gy w : grid) : Prop :=
  (forall i j, (S i < n)%nat -> (j < m)%nat -> w (S i) j - w i j = dx * (gx i j + gx (S i) j) / 2) /\
  (forall i j, (i < n)%nat -> (S j < m)%nat -> w i (S j) - w i j = dy * (gy i j + gy i (S j)) / 2).
(** the mean of the values of an array *)
Definition mean_of (n m : nat) (w : grid) : R := mean (map (fun p => w (fst p) (snd p)) (cells n m)).
(** a polynomial of degree two and its derivatives *)
Record poly : Type := mkpoly { c0 : R; cx : R; cy : R; cxx : R; cxy : R; cyy : R }.
Definition eval (p : poly) (x y : R) : R := c0 p + cx p * x + cy p * y + cxx p * x ^ 2 + cxy p * x * y + cyy p * y ^ 2.
Definition eval_dx (p : poly) (x y : R) : R := cx p + 2 * cxx p * x + cxy p * y.
Definition eval_dy (p : poly) (x y : R) : R := cy p + cxy p * x + 2 * cyy p * y.
(** the values of a function on a grid *)
Definition sampled (f : R -> R -> R) (ax ay : list R) : grid := fun i j => f (nth i ax 0) (nth j ay 0).
