(** * StabSpec: words for the properties of the Stabilizer *)
From Coq Require Import Reals List Bool ZArith.
From Verif Require Import Res StabModel.
Import ListNotations.
#[local] Open Scope R_scope.

(** an axis of [n] coordinates from [a], [h] apart *)
Definition regular_axis (a h : R) (l : list R) : Prop := 0 < h /\ (2 <= length l)%nat /\ forall k, (k < length l)%nat -> nth k l 0 = a + INR k * h.
(** the frames have the sizes of the axes *)
Definition well_sized (v : video) : Prop := Forall (fun f => rows f = length (axe_x v) /\ cols f = length (axe_y v)) (frames v).
Definition known (bt : border) : Prop := bt <> OtherBorder.
(** what is expected of copyMakeBorder: the frame is in the middle of a larger one *)
Definition pads (pad : border -> nat -> frame -> frame) : Prop := forall bt b f, known bt ->
  rows (pad bt b f) = (rows f + 2 * b)%nat /\ cols (pad bt b f) = (cols f + 2 * b)%nat /\
  forall i j, (i < rows f)%nat -> (j < cols f)%nat -> pix (pad bt b f) (i + b) (j + b) = pix f i j.
(** the matrix of a translation by [c] columns and [r] rows *)
Definition shift_matrix (c r : Z) : matrix := mkmat 1 0 (IZR c) 0 1 (IZR r).
(** what is expected of warpAffine: the size asked and, for a translation by whole pixels, the pixels moved *)
Definition warps (warp : border -> matrix -> nat -> nat -> frame -> frame) : Prop := forall bt m n p f, known bt ->
  rows (warp bt m n p f) = n /\ cols (warp bt m n p f) = p /\
  forall c r i j i' j', m = shift_matrix c r -> (i < rows f)%nat -> (j < cols f)%nat -> (i' < n)%nat -> (j' < p)%nat ->
    Z.of_nat i' = (Z.of_nat i + r)%Z -> Z.of_nat j' = (Z.of_nat j + c)%Z -> pix (warp bt m n p f) i' j' = pix f i j.
(** what is expected of the smoothing: as many values; a constant is kept *)
Definition smooths (smooth : list R -> list R) : Prop := (forall l, length (smooth l) = length l) /\ forall c n, smooth (repeat c n) = repeat c n.
(** the motion between two frames: none when opencv finds none *)
Definition motion_between (estimate : frame -> frame -> option motion) (f g : frame) : motion :=
  match estimate f g with Some t => t | None => still end.
(** the rigid motion of a point (x, y), y being along the columns: a rotation followed by a translation *)
Definition moved (t : motion) (p : R * R) : R * R :=
  let (x, y) := p in (sin (ma t) * y + cos (ma t) * x + my t, cos (ma t) * y - sin (ma t) * x + mx t).
Definition distance (p q : R * R) : R := sqrt ((fst p - fst q) ^ 2 + (snd p - snd q) ^ 2).
(** the sum of motions *)
Fixpoint total (l : list motion) : motion := match l with [] => still | t :: l' => madd t (total l') end.
(** the frame [f] is seen in [g], moved by [r] rows and [c] columns *)
Definition seen_at (f g : frame) (r c : Z) : Prop := forall i j i' j', (i < rows f)%nat -> (j < cols f)%nat -> (i' < rows g)%nat -> (j' < cols g)%nat ->
  Z.of_nat i' = (Z.of_nat i + r)%Z -> Z.of_nat j' = (Z.of_nat j + c)%Z -> pix g i' j' = pix f i j.
