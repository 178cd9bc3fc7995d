(** * RecoModel: reconstruct_from_gradients (field_treatment/field_treatment.py 165-366), over the real numbers.
    Parameter: [solver], scipy's leastsq (ols=True, 347-356), from maxfev and the first guess.  Simplifications: exact arithmetic; masks are left out (the code reads
    the values only); [fact] stands for the number in unit_values*unit_x (233-235). *)
From Coq Require Import Reals List Bool Arith.
From Verif Require Import Res.
Import ListNotations.
#[local] Open Scope R_scope.

Definition grid : Type := nat -> nat -> R.
(** u[i, j] = v *)
Definition put (u : grid) (i j : nat) (v : R) : grid := fun a b => if Nat.eqb a i && Nat.eqb b j then v else u a b.
(** numpy.zeros *)
Definition zeros : grid := fun _ _ => 0.
(** the two orders of the loops: arange(1, n) and arange(n - 2, -1, -1) *)
Inductive way : Type := Up | Down.
Definition order (d : way) (n : nat) : list nat := match d with Up => seq 1 (n - 1) | Down => rev (seq 0 (n - 1)) end.
(** the neighbour already known, and the sign of the increment *)
Definition known (d : way) (i : nat) : nat := match d with Up => (i - 1)%nat | Down => S i end.
Definition sign (d : way) : R := match d with Up => 1 | Down => -1 end.
(** the index of the side from which a loop starts: 0 or -1 *)
Definition side (d : way) (n : nat) : nat := match d with Up => 0%nat | Down => (n - 1)%nat end.
(** the cells of an array of [n] rows and [m] columns *)
Definition cells (n m : nat) : list (nat * nat) := flat_map (fun i => map (fun j => (i, j)) (seq 0 m)) (seq 0 n).
Fixpoint sum (l : list R) : R := match l with [] => 0 | a :: l' => a + sum l' end.
(** numpy.mean *)
Definition mean (l : list R) : R := sum l / INR (length l).
(** filt_border (271-275) *)
Definition border (n m : nat) (c : nat * nat) : bool :=
  Nat.eqb (snd c) 0 || Nat.eqb (snd c) (m - 1) || Nat.eqb (fst c) 0 || Nat.eqb (fst c) (n - 1).

Section Rec.
Variables (n m : nat) (dx dy : R) (du_dx du_dy : grid).
(** u[i -+ 1, j] +- dx*(du_dx[i -+ 1, j] + du_dx[i, j])/2 and the same along y *)
Definition along_x (d : way) (u : grid) (i j : nat) : R := u (known d i) j + sign d * (dx * (du_dx (known d i) j + du_dx i j) / 2).
Definition along_y (d : way) (u : grid) (i j : nat) : R := u i (known d j) + sign d * (dy * (du_dy i (known d j) + du_dy i j) / 2).
(** the borders from a corner (237-269): the loop over the rows of the column of the corner, then over the columns of its row *)
Definition borders (dx_way dy_way : way) : grid :=
  let u := fold_left (fun u i => put u i (side dy_way m) (along_x dx_way u i (side dy_way m))) (order dx_way n) zeros in
  fold_left (fun u j => put u (side dx_way n) j (along_y dy_way u (side dx_way n) j)) (order dy_way m) u.
Definition shift (u : grid) (c : R) : grid := fun i j => u i j - c.
(** ua[filt_border] -= mean(ua[filt_border]) (281, 287) *)
Definition centred (u : grid) : grid :=
  let c := mean (map (fun p => u (fst p) (snd p)) (filter (border n m) (cells n m))) in
  fun i j => if border n m (i, j) then u i j - c else u i j.
(** the borders from two opposite corners put together (276-288) *)
Definition halved (u : grid) (i j : nat) : grid := put u i j (u i j / 2).
Definition ua : grid :=
  let u1 := borders Up Up in let u4 := borders Down Down in
  let u4 := shift u4 ((u4 (n - 1)%nat 0%nat - u1 (n - 1)%nat 0%nat + u4 0%nat (m - 1)%nat - u1 0%nat (m - 1)%nat) / 2) in
  let u4 : grid := fun i j => if Nat.ltb i (n - 1) && Nat.ltb j (m - 1) then 0 else u4 i j in
  let u : grid := fun i j => u1 i j + u4 i j in
  centred (halved (halved u (n - 1) 0) 0 (m - 1)).
Definition ub : grid :=
  let u2 := borders Up Down in let u3 := borders Down Up in
  let u3 := shift u3 ((u3 0%nat 0%nat - u2 0%nat 0%nat + u3 (n - 1)%nat (m - 1)%nat - u2 (n - 1)%nat (m - 1)%nat) / 2) in
  let u3 : grid := fun i j => if Nat.ltb i (n - 1) && Nat.leb 1 j then 0 else u3 i j in
  let u : grid := fun i j => u2 i j + u3 i j in
  centred (halved (halved u 0 0) (n - 1) (m - 1)).
Definition frame : grid := fun i j => (ua i j + ub i j) / 2.
(** the center from a corner (289-325) *)
Definition sweep (dx_way dy_way : way) : grid :=
  fold_left (fun u i => fold_left (fun u j => put u i j ((along_x dx_way u i j + along_y dy_way u i j) / 2)) (order dy_way m) u) (order dx_way n) frame.
(** u1[filt_corn] with integers (327-335): the rows 0 and 1 taken for each cell of the array of 0 and 1 *)
Definition corner (i j : nat) : nat := if (Nat.eqb i 0 || Nat.eqb i (n - 1)) && (Nat.eqb j 0 || Nat.eqb j (m - 1)) then 1%nat else 0%nat.
Definition corner_mean (u : grid) : R := mean (flat_map (fun c => map (u (corner (fst c) (snd c))) (seq 0 m)) (cells n m)).
Definition normalized (u : grid) : grid := shift u (corner_mean u).
(** the weights (338-344): X[i, j] = j and Y[i, j] = i *)
Definition back (k i : nat) : R := INR (k - 1 - i).
Definition weight1 (i j : nat) : R := back m j + back n i.
Definition weight2 (i j : nat) : R := INR j + back n i.
Definition weight3 (i j : nat) : R := back m j + INR i.
Definition weight4 (i j : nat) : R := INR j + INR i.
Definition merged : grid := fun i j =>
  (normalized (sweep Up Up) i j * weight1 i j + normalized (sweep Up Down) i j * weight2 i j + normalized (sweep Down Up) i j * weight3 i j + normalized (sweep Down Down) i j * weight4 i j)
  / (weight1 i j + weight2 i j + weight3 i j + weight4 i j).
End Rec.

Section Whole.
Variable solver : nat -> grid -> grid.
(** the end of the reconstruction (357-359) *)
Definition relative (n m : nat) (fact : R) (u : grid) : grid :=
  let v : grid := fun i j => u i j * fact in
  shift v (mean (map (fun p => v (fst p) (snd p)) (cells n m))).
(** the reconstruction of a scalar field, from the axes and the gradients; axe_x[1] and axe_y[1] raise IndexError on short axes (229-230) *)
Definition reconstruct (axe_x axe_y : list R) (du_dx du_dy : grid) (fact : R) (ols : bool) (maxiter : nat) : res grid :=
  match axe_x, axe_y with
  | x0 :: x1 :: _, y0 :: y1 :: _ =>
      let n := length axe_x in let m := length axe_y in
      let u := merged n m (x1 - x0) (y1 - y0) du_dx du_dy in
      Ok (relative n m fact (if ols then solver (maxiter * (n * m)) u else u))
  | _, _ => Err IndexErr
  end.
(** the reconstruction of a vector field (214-223): each component by a call without maxiter, whose default is 10 *)
Definition reconstruct_vector (axe_x axe_y : list R) (dx1 dy1 dx2 dy2 : grid) (fact : R) (ols : bool) (maxiter : nat) : res (grid * grid) :=
  let* u := reconstruct axe_x axe_y dx1 dy1 fact ols 10 in
  let* v := reconstruct axe_x axe_y dx2 dy2 fact ols 10 in
  Ok (u, v).
End Whole.
