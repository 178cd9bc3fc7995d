(** * CriterionSpec: what the theorems about the criteria over the real numbers say. *)
From Coq Require Import Reals Lra Qreals.
From Verif Require Import Num Res ListLib Arr FieldModel ScalarFieldModel VectorFieldModel FieldSpec GradModel GradSpec CriterionModel.
#[local] Open Scope R_scope.

Notation vec := (R * R)%type.
Definition cross (a b : vec) : R := fst a * snd b - snd a * fst b.
Definition dot (a b : vec) : R := fst a * fst b + snd a * snd b.
Definition len (a : vec) : R := sqrt (dot a a).
Definition vsub (a b : vec) : vec := (fst a - fst b, snd a - snd b).
Definition vadd (a b : vec) : vec := (fst a + fst b, snd a + snd b).
(** s is the sine (c the cosine) of the angle from a to b: |a||b| s = a x b; 0 when one of them is null *)
Definition sine (a b : vec) (s : R) : Prop := s * (len a * len b) = cross a b /\ (len a * len b = 0 -> s = 0).
Definition cosine (a b : vec) (c : R) : Prop := c * (len a * len b) = dot a b /\ (len a * len b = 0 -> c = 0).
(** v is the mean of l *)
Definition mean_is (l : list R) (v : R) : Prop := INR (length l) * v = fold_right Rplus 0 l.
Definition vmean_is (l : list vec) (v : vec) : Prop := mean_is (map fst l) (fst v) /\ mean_is (map snd l) (snd v).
(** the velocity shown by the field at the cell c, and the position of this cell *)
Definition has_velocity (f : vfield) (c : nat * nat) (v : vec) : Prop :=
  exists x y, at_ (cx f) (fst c) (snd c) = Some x /\ at_ (cy f) (fst c) (snd c) = Some y /\ v = (toR x, toR y).
Definition cell_pos (f : vfield) (c : nat * nat) : vec := (toR (nths (ax (vg f)) (fst c)), toR (nths (ay (vg f)) (snd c))).
(** the velocities l' of the cells l *)
Definition shows_velocities (f : vfield) (l : list (nat * nat)) (vs : list vec) : Prop := Forall2 (has_velocity f) l vs.
(** g is the mean over the neighbours of the sine (cosine) of the angle from the vector that goes from the cell to the
    neighbour to the velocity of the neighbour relative to w *)
Definition mean_sine (arm vel : list vec) (w : vec) (g : R) : Prop :=
  exists ss, length ss = length vel /\ mean_is ss g /\
    Forall2 (fun av s => sine (fst av) (vsub (snd av) w) s) (combine arm vel) ss.
Definition mean_cosine (arm vel : list vec) (w : vec) (g : R) : Prop :=
  exists ss, length ss = length vel /\ mean_is ss g /\
    Forall2 (fun av s => cosine (fst av) (vsub (snd av) w) s) (combine arm vel) ss.
(** the criteria of a cell from the vectors to its neighbours and their velocities *)
Definition gamma_is (kind : gkind) (arm vel : list vec) (g : R) : Prop :=
  match kind with
  | Gamma1 => mean_sine arm vel (0, 0) g
  | Gamma1b => exists m g', vmean_is vel m /\ mean_sine arm vel (0, 0) g' /\ g = g' * len m
  | Gamma2 => exists m, vmean_is vel m /\ mean_sine arm vel m g
  | Gamma2b => exists m g' k, vmean_is vel m /\ mean_sine arm vel m g' /\ g = g' * k /\ 0 <= k <= 1 /\
      (* the standard deviation divided by the norm of the mean, when it is less than 1 *)
      exists s, mean_is (map (fun v => dot (vsub v m) (vsub v m)) vel) (s * s) /\ 0 <= s /\
        (s <= len m -> 0 < len m -> k * len m = s) /\ (len m < s -> k = 1)
  end.
(** all the velocities of f' are those of f plus w; those of f multiplied by k; those of f turned by a quarter *)
Definition translated (f f' : vfield) (w : num * num) : Prop :=
  vg f' = vg f /\ vmsk f' = vmsk f /\ vf_wf f /\ vf_wf f' /\
  forall i j, at_ (cx f') i j = option_map (fun x => x + fst w)%num (at_ (cx f) i j) /\
              at_ (cy f') i j = option_map (fun y => y + snd w)%num (at_ (cy f) i j).
Definition multiplied (f f' : vfield) (k : num) : Prop :=
  vg f' = vg f /\ vmsk f' = vmsk f /\ vf_wf f /\ vf_wf f' /\
  forall i j, at_ (cx f') i j = option_map (fun x => k * x)%num (at_ (cx f) i j) /\
              at_ (cy f') i j = option_map (fun y => k * y)%num (at_ (cy f) i j).
Definition turned (f f' : vfield) : Prop :=
  vg f' = vg f /\ vmsk f' = vmsk f /\ vf_wf f /\ vf_wf f' /\
  forall i j, at_ (cx f') i j = option_map (fun y => - y)%num (at_ (cy f) i j) /\ at_ (cy f') i j = at_ (cx f) i j.
(** the same numbers and masks *)
Definition same_result (r r' : res (arr oreal * arr bool)) : Prop :=
  match r, r' with
  | Ok (v, m), Ok (v', m') => d0 v = d0 v' /\ d1 v = d1 v' /\
      forall i j, (i < d0 v)%nat -> (j < d1 v)%nat -> at_ v i j = at_ v' i j /\ at_ m i j = at_ m' i j
  | Err e, Err e' => e = e'
  | _, _ => False
  end.
Definition opposite_result (r r' : res (arr oreal * arr bool)) : Prop :=
  match r, r' with
  | Ok (v, m), Ok (v', m') => d0 v = d0 v' /\ d1 v = d1 v' /\
      forall i j, (i < d0 v)%nat -> (j < d1 v)%nat -> at_ v' i j = option_map Ropp (at_ v i j) /\ at_ m i j = at_ m' i j
  | Err e, Err e' => e = e'
  | _, _ => False
  end.
(** ** the velocity gradient: differences of the values at the ends of the stencils *)
Definition slope_x (f : vfield) (a : arr onum) (i j : nat) (d : R) : Prop :=
  exists p q u v, stencil (length (ax (vg f))) i p /\ stencil (length (ax (vg f))) i q /\ (p < q)%nat /\
    at_ a p j = Some u /\ at_ a q j = Some v /\
    d * (fst (cell_pos f (q, j)) - fst (cell_pos f (p, j))) = toR v - toR u.
Definition slope_y (f : vfield) (a : arr onum) (i j : nat) (d : R) : Prop :=
  exists p q u v, stencil (length (ay (vg f))) j p /\ stencil (length (ay (vg f))) j q /\ (p < q)%nat /\
    at_ a i p = Some u /\ at_ a i q = Some v /\
    d * (snd (cell_pos f (i, q)) - snd (cell_pos f (i, p))) = toR v - toR u.
(** the matrix ((a, b), (c, d)) of the derivatives at the cell (i, j) *)
Definition jacobian (f : vfield) (i j : nat) (a b c d : R) : Prop :=
  slope_x f (cx f) i j a /\ slope_y f (cx f) i j b /\ slope_x f (cy f) i j c /\ slope_y f (cy f) i j d.
(** the velocity gradient turns every direction of the plane: the trajectories are closed or spiral *)
Definition turns_all (a b c d : R) : Prop :=
  ~ exists (l : R) (v : vec), v <> (0, 0) /\ (a * fst v + b * snd v, c * fst v + d * snd v) = (l * fst v, l * snd v).
(** what is expected of the eigenvalues computed by numpy: two complex numbers whose sum is the trace and whose product is
    the determinant *)
Definition eigenvalues (eig : R -> R -> R -> R -> (R * R) * (R * R)) : Prop :=
  forall a b c d, let (l1, l2) := eig a b c d in
    fst l1 + fst l2 = a + d /\ snd l1 + snd l2 = 0 /\
    fst l1 * fst l2 - snd l1 * snd l2 = a * d - b * c /\ fst l1 * snd l2 + snd l1 * fst l2 = 0.
(** matrices of order 2, by rows *)
Notation mat := ((R * R) * (R * R))%type.
Definition mvec (m : mat) (v : vec) : vec := (dot (fst m) v, dot (snd m) v).
Definition mmul (m n : mat) : mat :=
  let c1 := (fst (fst n), fst (snd n)) in let c2 := (snd (fst n), snd (snd n)) in
  ((dot (fst m) c1, dot (fst m) c2), (dot (snd m) c1, dot (snd m) c2)).
Definition madd (m n : mat) : mat := (vadd (fst m) (fst n), vadd (snd m) (snd n)).
Definition symmetric_part (m : mat) : mat :=
  let h := (snd (fst m) + fst (snd m)) / 2 in ((fst (fst m), h), (h, snd (snd m))).
Definition antisymmetric_part (m : mat) : mat :=
  let h := (snd (fst m) - fst (snd m)) / 2 in ((0, h), (- h, 0)).
(** the sum of the squares of the entries *)
Definition norm_sq (m : mat) : R := dot (fst m) (fst m) + dot (snd m) (snd m).
(** the least eigenvalue of a symmetric matrix: the least value of its quadratic form on unit vectors *)
Definition least_eigenvalue (m : mat) (l : R) : Prop :=
  (forall v : vec, l * dot v v <= dot v (mvec m v)) /\
  exists v : vec, v <> (0, 0) /\ mvec m v = (l * fst v, l * snd v).
