(** * PbiModel: the Poincare-Bendixson index and the detection of critical cells (vortex_detection/vortex_detection.py).
    Over the real numbers of the standard library; an array is a function of a row and a column.  As in the code, the rows
    follow y and the columns follow x (velocityfield_to_vf, 43-57, transposes). *)
From Coq Require Import Reals Lra List ZArith Lia Bool.
Import ListNotations.
#[local] Open Scope R_scope.

Fixpoint rsum (l : list R) : R := match l with [] => 0 | p :: r => p + rsum r end.

(** VectorField.theta (core/vectorfield.py 442-470) at one point that is not masked; a masked point has the angle 0 *)
Definition magnitude (vx vy : R) : R := sqrt (vx * vx + vy * vy).
Definition theta_of (vx vy : R) : R :=
  if Req_EM_T (magnitude vx vy) 0 then 0
  else if Rlt_dec vy 0 then 2 * PI - acos (vx / magnitude vx vy) else acos (vx / magnitude vx vy).

(** VF (62-71): m rows and n columns *)
Record vf := mkvf { rows : nat; cols : nat; fvx : nat -> nat -> R; fvy : nat -> nat -> R; fmask : nat -> nat -> bool;
                    ftheta : nat -> nat -> R; fax : nat -> R; fay : nat -> R }.
(** velocityfield_to_vf (43-57): [vx x y] are the components of the vector field, of shape (n, m) *)
Definition vf_of (n m : nat) (vx vy : nat -> nat -> R) (mask : nat -> nat -> bool) (ax ay : nat -> R) : vf :=
  mkvf m n (fun i j => vx j i) (fun i j => vy j i) (fun i j => mask j i)
    (fun i j => if mask j i then 0 else theta_of (vx j i) (vy j i)) ax ay.

(** the border of get_pbi (341-345) *)
Definition pbi_border (th : nat -> nat -> R) (m i : nat) : list R :=
  map (fun k => th (m - 1 - k)%nat 0%nat) (seq 0 m) ++ map (fun j => th 0%nat j) (seq 0 i) ++
  map (fun k => th k i) (seq 0 m) ++ map (fun k => th (m - 1)%nat (i - k)%nat) (seq 0 i).
(** the closed differences (346-349) *)
Fixpoint diffs (l : list R) : list R :=
  match l with a :: ((b :: _) as r) => (b - a) :: diffs r | _ => [] end.
Definition closed_diffs (l : list R) : list R :=
  match l with [] => [] | a :: _ => diffs l ++ [a - last l 0] end.
(** 351-352 *)
Definition wrap (d : R) : R :=
  let d := if Rlt_dec PI d then d - 2 * PI else d in if Rlt_dec d (- PI) then d + 2 * PI else d.
(** np.round, to the nearest integer (up at the middle of two integers, where numpy takes the even one) *)
Definition np_round (x : R) : R := IZR (Int_part (x + / 2)).
Definition pbi_sum (th : nat -> nat -> R) (m i : nat) : R := rsum (map wrap (closed_diffs (pbi_border th m i))).
(** get_pbi('x') (331-357) *)
Definition pbi_x (th : nat -> nat -> R) (m n : nat) : list R :=
  map (fun i => match i with O => np_round 0 | _ => np_round (pbi_sum th m i / (2 * PI)) end) (seq 0 n).
(** get_pbi('y') (331-357): np.rot90(theta, 3) has shape (n, m) *)
Definition pbi_y (th : nat -> nat -> R) (m n : nat) : list R := rev (pbi_x (fun i j => th (m - 1 - j)%nat i) n m).
(** the number of changes of a list (423-424, 430-435) *)
Fixpoint changes (l : list R) : nat :=
  match l with a :: ((b :: _) as r) => ((if Req_EM_T (b - a) 0 then 0 else 1) + changes r)%nat | _ => O end.
(** _check_struct_number (417-436) *)
Definition struct_number (f : vf) : nat * nat :=
  if (Nat.eqb (rows f) 2 && Nat.eqb (cols f) 2)%bool then
    let k := changes (pbi_x (ftheta f) 2 2) in (k, k)
  else (changes (pbi_x (ftheta f) (rows f) (cols f)), changes (pbi_y (ftheta f) (rows f) (cols f))).

(** the cell of corners (i, j) and (i+1, j+1) (140-148) *)
Definition cell_of (f : vf) (i j : nat) : vf :=
  mkvf 2 2 (fun a b => fvx f (i + a) (j + b)) (fun a b => fvy f (i + a) (j + b)) (fun _ _ => false)
    (fun a b => ftheta f (i + a) (j + b)) (fun b => fax f (j + b)) (fun a => fay f (i + a)).
(** the filter (109-131) *)
Definition pos01 (x : R) : nat := if Rlt_dec 0 x then 1 else 0.
Definition crosses0 (v : nat -> nat -> R) (i j : nat) : bool :=
  let s := (pos01 (v i j) + pos01 (v (S i) j) + pos01 (v i (S j)) + pos01 (v (S i) (S j)))%nat in
  (negb (Nat.eqb s 0) && negb (Nat.eqb s 4))%bool.
Definition cell_masked (f : vf) (i j : nat) : bool := fmask f i j || fmask f (S i) j || (fmask f i (S j) || fmask f (S i) (S j)).
Definition cell_filter (f : vf) (i j : nat) : bool := negb (cell_masked f i j) && (crosses0 (fvx f) i j && crosses0 (fvy f) i j).
(** the cells that are looked at, row by row (135-137) *)
Definition cells (m n : nat) : list (nat * nat) := flat_map (fun i => map (fun j => (i, j)) (seq 0 (n - 1))) (seq 0 (m - 1)).
(** _get_jacobian_matrix (3396-3440) of a cell, with the default steps 1: ((dVx/dx, dVx/dy), (dVy/dx, dVy/dy)) *)
Definition mean_dx (v : nat -> nat -> R) : R := ((v 0%nat 1%nat - v 0%nat 0%nat) + (v 1%nat 1%nat - v 1%nat 0%nat)) / 2.
Definition mean_dy (v : nat -> nat -> R) : R := ((v 1%nat 0%nat - v 0%nat 0%nat) + (v 1%nat 1%nat - v 0%nat 1%nat)) / 2.
(** the type of a detected cell (157-175): 0 saddle, 1 and 2 focus, 3 and 4 node.  [eig a b c d] are the two eigenvalues
    of ((a, b), (c, d)) given by numpy, as pairs of a real and an imaginary part. *)
Definition cp_type (eig : R -> R -> R -> R -> (R * R) * (R * R)) (c : vf) : nat :=
  if Req_EM_T (nth 1 (pbi_x (ftheta c) 2 2) 0) (- 1) then 0
  else
    let j10 := mean_dx (fvy c) in
    let (l1, l2) := eig (mean_dx (fvx c)) (mean_dy (fvx c)) j10 (mean_dy (fvy c)) in
    let tau := fst l1 in
    let mu := Rabs (snd l1) + Rabs (snd l2) in
    if Req_EM_T mu 0 then (if Rle_dec 0 tau then 3 else 4)
    else if Rlt_dec j10 0 then 1 else 2.
(** get_cp_cell_position (84-177): the position and the type of the critical points *)
Definition cp_cells (eig : R -> R -> R -> R -> (R * R) * (R * R)) (f : vf) : list ((R * R) * nat) :=
  let dx := fax f 1 - fax f 0 in
  let dy := fay f 1 - fay f 0 in
  flat_map (fun p => let '(i, j) := p in
    if cell_filter f i j then
      let c := cell_of f i j in
      let k := struct_number c in
      if (Nat.eqb (fst k) 0 && Nat.eqb (snd k) 0)%bool then []
      else [((fax c 0 + dx / 2, fay c 0 + dy / 2), cp_type eig c)]
    else []) (cells (rows f) (cols f)).
