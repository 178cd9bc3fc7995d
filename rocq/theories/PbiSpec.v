(** * PbiSpec: what the properties of the detection of critical points mean. *)
From Coq Require Import Reals Lra List ZArith Lia.
From Verif Require Import PbiModel.
Import ListNotations.
#[local] Open Scope R_scope.

(** [sumn n f] is f 0 + ... + f (n - 1) *)
Fixpoint sumn (n : nat) (f : nat -> R) : R := match n with O => 0 | S k => sumn k f + f k end.
(** the sum of [ang] along the sides of the rectangle of rows 0..m-1 and columns 0..i: down the left side (to row 0),
    along row 0, up the right side, back along row m-1 (counter-clockwise when y grows with the rows) *)
Definition around (ang : nat * nat -> nat * nat -> R) (m i : nat) : R :=
  sumn (m - 1) (fun r => ang (S r, 0)%nat (r, 0)%nat) + sumn i (fun c => ang (0, c)%nat (0, S c)%nat) +
  sumn (m - 1) (fun r => ang (r, i) (S r, i)) + sumn i (fun c => ang (m - 1, S c)%nat (m - 1, c)%nat).

(** the angle from a vector to another one *)
Definition dot (u v : R * R) : R := fst u * fst v + snd u * snd v.
Definition cross (u v : R * R) : R := fst u * snd v - snd u * fst v.
Definition norm (u : R * R) : R := sqrt (dot u u).
Definition signed_angle (u v : R * R) (a : R) : Prop :=
  - PI < a < PI /\ norm u * norm v * cos a = dot u v /\ norm u * norm v * sin a = cross u v.
(** the velocity interpolated between two neighbours does not vanish *)
Definition clear_edge (u v : R * R) : Prop :=
  forall t, 0 <= t <= 1 -> ((1 - t) * fst u + t * fst v <> 0 \/ (1 - t) * snd u + t * snd v <> 0).

(** two neighbours of the grid *)
Definition neighbours (p q : nat * nat) : Prop :=
  (fst p = fst q /\ (snd p = S (snd q) \/ snd q = S (snd p))) \/ (snd p = snd q /\ (fst p = S (fst q) \/ fst q = S (fst p))).
Definition inside (m n : nat) (p : nat * nat) : Prop := (fst p < m /\ snd p < n)%nat.
(** a field without masked value whose velocity does not vanish on the lines of its grid *)
Definition vel (f : vf) (p : nat * nat) : R * R := (fvx f (fst p) (snd p), fvy f (fst p) (snd p)).
Definition regular (f : vf) : Prop :=
  (forall i j, (i < rows f)%nat -> (j < cols f)%nat -> fmask f i j = false /\ ftheta f i j = theta_of (fvx f i j) (fvy f i j)) /\
  (forall p q, inside (rows f) (cols f) p -> inside (rows f) (cols f) q -> neighbours p q -> clear_edge (vel f p) (vel f q)).
(** the index of a cell: that of the field made of its four corners *)
Definition cell_index (th : nat -> nat -> R) (i j : nat) : R := nth 1 (pbi_x (fun a b => th (i + a)%nat (j + b)%nat) 2 2) 0.
(** angles as VectorField.theta gives them *)
Definition angles (m n : nat) (th : nat -> nat -> R) : Prop := forall i j, (i < m)%nat -> (j < n)%nat -> 0 <= th i j < 2 * PI.

(** the field v = J (p - c) on the axes *)
Definition linear_vf (m n : nat) (ax ay : nat -> R) (a b c d cx cy : R) : vf :=
  vf_of n m (fun j i => a * (ax j - cx) + b * (ay i - cy)) (fun j i => c * (ax j - cx) + d * (ay i - cy)) (fun _ _ => false) ax ay.
Definition increasing (n : nat) (ax : nat -> R) : Prop := forall i, (S i < n)%nat -> ax i < ax (S i).

(** eigenvalues of ((a, b), (c, d)): the sum is the trace and the product is the determinant (in complex numbers) *)
Definition eigen_ok (eig : R -> R -> R -> R -> (R * R) * (R * R)) : Prop :=
  forall a b c d, let '((r1, i1), (r2, i2)) := eig a b c d in
    r1 + r2 = a + d /\ i1 + i2 = 0 /\ r1 * r2 - i1 * i2 = a * d - b * c /\ r1 * i2 + i1 * r2 = 0.

(** the number of points of a type *)
Definition count_type (P : nat -> bool) (l : list ((R * R) * nat)) : nat := length (filter (fun p => P (snd p)) l).
Definition is_saddle (t : nat) : bool := Nat.eqb t 0.
(** a real eigenvalue of ((a, b), (c, d)) *)
Definition real_eigenvalue (a b c d l : R) : Prop := (a - l) * (d - l) - b * c = 0.
(** the middle of a cell *)
Definition middle (f : vf) (i j : nat) : R * R := ((fax f j + fax f (S j)) / 2, (fay f i + fay f (S i)) / 2).
(** evenly spaced axes *)
Definition even_axis (n : nat) (ax : nat -> R) (d : R) : Prop := forall i, (S i < n)%nat -> ax (S i) - ax i = d.
