(** * JacSpec: what a user expects of the eigenvalues of the velocity gradient and of Kenwright's fields. *)
From Coq Require Import Reals Lra Qreals.
From Verif Require Import Num Res ListLib Arr FieldModel ScalarFieldModel VectorFieldModel PointsModel GradModel GradSpec CriterionModel CriterionSpec JacModel.
#[local] Open Scope R_scope.

Definition cadd (x y : cnum) : cnum := (fst x + fst y, snd x + snd y).
Definition cmul (x y : cnum) : cnum := (fst x * fst y - snd x * snd y, fst x * snd y + snd x * fst y).
Definition real (x : R) : cnum := (x, 0).
(** l1 and l2 are the roots of the characteristic polynomial of ((a, b), (c, d)) *)
Definition roots (a b c d : R) (l1 l2 : cnum) : Prop := cadd l1 l2 = real (a + d) /\ cmul l1 l2 = real (a * d - b * c).
(** the complex vector v is multiplied by l *)
Definition ceigen (a b c d : R) (l : cnum) (v : cnum * cnum) : Prop :=
  cadd (cmul (real a) (fst v)) (cmul (real b) (snd v)) = cmul l (fst v) /\
  cadd (cmul (real c) (fst v)) (cmul (real d) (snd v)) = cmul l (snd v).
Definition cnorm2 (v : cnum * cnum) : R := fst (fst v) ^ 2 + snd (fst v) ^ 2 + fst (snd v) ^ 2 + snd (snd v) ^ 2.
(** What is expected of numpy.linalg.eig at a matrix: its eigenvalues, and for each of them an eigenvector of norm 1; all real when the
    eigenvalues are *)
Definition eig_right (eig : eig_t) (a b c d : R) : Prop :=
  let '((l0, l1), (v0, v1)) := eig a b c d in
  roots a b c d l0 l1 /\ ceigen a b c d l0 v0 /\ ceigen a b c d l1 v1 /\ cnorm2 v0 = 1 /\ cnorm2 v1 = 1 /\
  (snd l0 = 0 -> snd l1 = 0 -> snd (fst v0) = 0 /\ snd (snd v0) = 0 /\ snd (fst v1) = 0 /\ snd (snd v1) = 0).
(** the derivatives at the cell rest on a masked vector *)
Definition rests_on_masked (f : vfield) (i j : nat) : Prop :=
  (exists k, stencil (length (ax (vg f))) i k /\ at_ (vmsk f) k j = true) \/ (exists k, stencil (length (ay (vg f))) j k /\ at_ (vmsk f) i k = true).
(** real eigenvector of norm 1 *)
Definition is_eigenvector (a b c d l : R) (v : R * R) : Prop :=
  (a * fst v + b * snd v, c * fst v + d * snd v) = (l * fst v, l * snd v) /\ fst v ^ 2 + snd v ^ 2 = 1.
Definition parallel (u v : R * R) : Prop := fst u * snd v = snd u * fst v.
(** eig is right at all the cells of f *)
Definition eig_right_on (eig : eig_t) (f : vfield) : Prop :=
  forall i j a b c d, (i < length (ax (vg f)))%nat -> (j < length (ay (vg f)))%nat -> jacobian f i j a b c d -> eig_right eig a b c d.
