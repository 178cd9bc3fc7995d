(** * CriterionModel: the criteria that need a square root (vortex_criterions/vortex_criterions.py), raw=True.
    The field holds rational numbers (and NaN); what is computed from them is a real number, or NaN ([None]). *)
From Coq Require Import Reals Lra Qreals.
From Verif Require Import Num Res ListLib Arr FieldModel ScalarFieldModel VectorFieldModel PointsModel GradModel.
#[local] Open Scope R_scope.

Notation oreal := (option R).
Definition toR (q : num) : R := Q2R (this q).
Definition rlift2 (f : R -> R -> R) (a b : oreal) : oreal :=
  match a, b with Some x, Some y => Some (f x y) | _, _ => None end.
(** the components at a neighbour *)
Definition ovec (a b : onum) : option (R * R) :=
  match a, b with Some x, Some y => Some (toR x, toR y) | _, _ => None end.
Definition norm2 (x y : R) : R := sqrt (x * x + y * y).
Fixpoint rsum (l : list R) : R := match l with [] => 0 | a :: r => a + rsum r end.
Definition rmean (l : list R) : R := rsum l / INR (length l).
(** all the values, unless one of them is NaN *)
Fixpoint all_some {A} (l : list (option A)) : option (list A) :=
  match l with
  | [] => Some []
  | Some a :: r => option_map (cons a) (all_some r)
  | None :: _ => None
  end.
Definition nth_vec (l : list (R * R)) : list R * list R := (map fst l, map snd l).

(** the vectors from the centre to the neighbours (226-235) *)
Definition arms (motif : list (Z * Z)) (dx dy : R) : list (R * R) :=
  map (fun s => (IZR (fst s) * dx, IZR (snd s) * dy)) motif.
Inductive gkind := Gamma1 | Gamma1b | Gamma2 | Gamma2b.
(** one term of the sum (265-286): [a] is the arm, [b] the velocity, made relative for gamma2 *)
Definition cross_term (a b : R * R) : R :=
  let denom := norm2 (fst b) (snd b) * norm2 (fst a) (snd a) in
  if Req_EM_T denom 0 then 0 else (fst a * snd b - snd a * fst b) / denom.
Definition dot_term (a b : R * R) : R :=
  let denom := norm2 (fst b) (snd b) * norm2 (fst a) (snd a) in
  if Req_EM_T denom 0 then 0 else (fst a * fst b + snd a * snd b) / denom.
Definition vminus (c b : R * R) : R * R := (fst b - fst c, snd b - snd c).
Definition vmean (l : list (R * R)) : R * R := (rmean (map fst l), rmean (map snd l)).
(** get_gamma at one cell (248-298): the velocities of the neighbours, all known.  For gamma2b without mean velocity the
    code divides by zero (infinite, then 1, or NaN for a null field): the factor is taken as 1. *)
Definition gamma_of (kind : gkind) (arm vel : list (R * R)) : R :=
  let m := vmean vel in
  let total c := rsum (map (fun p => cross_term (fst p) (vminus c (snd p))) (combine arm vel)) in
  let n := INR (length vel) in
  match kind with
  | Gamma1 => total (0, 0) / n
  | Gamma1b => total (0, 0) / n * norm2 (fst m) (snd m)
  | Gamma2 => total m / n
  | Gamma2b =>
    let sx := rmean (map (fun v => (fst v - fst m) * (fst v - fst m)) vel) in
    let sy := rmean (map (fun v => (snd v - snd m) * (snd v - snd m)) vel) in
    let fact := if Req_EM_T (norm2 (fst m) (snd m)) 0 then 1 else sqrt (sx + sy) / norm2 (fst m) (snd m) in
    total m / n * (if Rlt_dec 1 (Rabs fact) then 1 else fact)
  end.
Definition velocities (f : vfield) (motif : list (Z * Z)) (i j : nat) : res (option (list (R * R))) :=
  let* l := mapM (fun s => let* x := read_at (cx f) i j s in let* y := read_at (cy f) i j s in Ok (ovec x y)) motif in
  Ok (all_some l).
(** the criteria of all the cells: a skipped cell is masked and holds 0 *)
Definition criterion (f : vfield) (user : option (arr bool)) (radius : num) (ind : bool)
  (at_cell : R -> R -> list (Z * Z) -> nat -> nat -> res oreal) : res (arr oreal * arr bool) :=
  let* k := neighbourhood f user radius ind in
  raise IndexErr when (Nat.ltb (length (ax (vg f))) 2 || Nat.ltb (length (ay (vg f))) 2)%bool ;;
  let n := length (ax (vg f)) in let m := length (ay (vg f)) in
  let cell i j := if skipped k i j then Ok (Some 0)
                  else at_cell (toR (step0 (ax (vg f)))) (toR (step0 (ay (vg f)))) (nmotif k) i j in
  let* _ := each_cell n m cell in
  Ok (mkarr n m (fun i j => cell_or None (cell i j)), mkarr n m (skipped k)).
(** get_gamma (153-307) of one field *)
Definition get_gamma (f : vfield) (user : option (arr bool)) (radius : num) (ind : bool) (kind : gkind) : res (arr oreal * arr bool) :=
  criterion f user radius ind (fun dx dy motif i j =>
    let* o := velocities f motif i j in Ok (option_map (gamma_of kind (arms motif dx dy)) o)).

(** get_kappa (409-529): kappa2 takes the velocity of the cell itself as mean velocity (488-492) *)
Definition kappa_of (arm vel : list (R * R)) (c : R * R) : R :=
  rsum (map (fun p => dot_term (fst p) (vminus c (snd p))) (combine arm vel)) / INR (length vel).
Definition get_kappa (f : vfield) (user : option (arr bool)) (radius : num) (ind relative : bool) : res (arr oreal * arr bool) :=
  criterion f user radius ind (fun dx dy motif i j =>
    let* o := velocities f motif i j in
    Ok (match o, (if relative then ovec (at_ (cx f) i j) (at_ (cy f) i j) else Some (0, 0)) with
        | Some vel, Some c => Some (kappa_of (arms motif dx dy) vel c)
        | _, _ => None
        end)).

(** get_residual_vorticity (1297-1360) and get_shear_vorticity (1363-1420) at a cell with the given gradients *)
Definition strain (exx exy eyx : R) : R := sqrt (4 * (exx * exx) + (exy + eyx) * (exy + eyx)) / 2.
Definition omega_of (exy eyx : R) : R := (eyx - exy) / 2.
Definition residual_of (exx exy eyx : R) : R :=
  let s := strain exx exy eyx in
  let w := omega_of exy eyx in
  let sign := if Req_EM_T (Rabs w) 0 then 1 else w / Rabs w in
  if Rlt_dec s (Rabs w) then sign * (Rabs w - s) else 0.
Definition shear_of (exx exy eyx : R) : R :=
  let s := strain exx exy eyx in
  let w := omega_of exy eyx in
  if Rlt_dec s (Rabs w) then w / Rabs w * s else w.
(** get_swirling_strength (964-1015): [eig] are the eigenvalues of numpy, as pairs of a real and an imaginary part *)
Definition swirling_of (eig : R -> R -> R -> R -> (R * R) * (R * R)) (exx exy eyx eyy : R) : R :=
  let (l1, l2) := eig exx exy eyx eyy in Rmax (snd l1) (snd l2).
(** get_Nk_criterion (1123-1168): the quotient of two masked arrays is masked where the second is 0 *)
Definition nk_of (exx exy eyx eyy : R) : oreal :=
  let rot := / sqrt 2 * Rabs (exy - eyx) in
  let shear := sqrt (exx * exx + / 2 * ((exy + eyx) * (exy + eyx)) + eyy * eyy) in
  if Req_EM_T shear 0 then None else Some (rot / shear).
(** get_delta_criterion (1171-1230): masked when the eigenvalues are real *)
Definition q_of (exx exy eyx eyy : R) : R :=
  / 2 * (/ 2 * ((exy - eyx) * (exy - eyx))) - (exx * exx + / 2 * ((exy + eyx) * (exy + eyx)) + eyy * eyy).
Definition delta_of (eig : R -> R -> R -> R -> (R * R) * (R * R)) (exx exy eyx eyy : R) : R * bool :=
  let (l1, l2) := eig exx exy eyx eyy in
  let real := if Req_EM_T (snd l1) 0 then (if Req_EM_T (snd l2) 0 then true else false) else false in
  let r := if real then 0 else - (exx * eyy - exy * eyx) in
  let q := q_of exx exy eyx eyy in
  ((q / 3) * (q / 3) * (q / 3) + (r / 2) * (r / 2), real).
(** get_lambda2 (1233-1294): the least of the real parts of the eigenvalues of S^2 + Omega^2 *)
Definition lambda2_matrix (udx udy vdx vdy : R) : (R * R) * (R * R) :=
  let c := / 2 * (udy + vdx) in
  let o := / 2 * (udy - vdx) in
  ((udx * udx + c * c - o * o, udx * c + c * vdy), (c * udx + vdy * c, c * c + vdy * vdy - o * o)).
Definition lambda2_of (eig : R -> R -> R -> R -> (R * R) * (R * R)) (udx udy vdx vdy : R) : R :=
  let '((a, b), (c, d)) := lambda2_matrix udx udy vdx vdy in
  let (l1, l2) := eig a b c d in Rmin (fst l1) (fst l2).
(** the gradients used by residual, shear, swirling strength...: numpy.gradient of the filled components at a cell *)
Definition rgrads (f : vfield) (i j : nat) : option ((R * R) * (R * R)) :=
  let hx := step0 (ax (vg f)) in let hy := step0 (ay (vg f)) in
  match at_ (grad0 hx (cx f)) i j, at_ (grad1 hy (cx f)) i j, at_ (grad0 hx (cy f)) i j, at_ (grad1 hy (cy f)) i j with
  | Some a, Some b, Some c, Some d => Some ((toR a, toR b), (toR c, toR d))
  | _, _, _, _ => None
  end.
Definition get_residual (fill : vfield -> res vfield) (f : vfield) : res (arr oreal) :=
  let* t := fill f in
  raise IndexErr when (Nat.ltb (length (ax (vg t))) 2 || Nat.ltb (length (ay (vg t))) 2)%bool ;;
  Ok (mkarr (d0 (cx t)) (d1 (cx t)) (fun i j =>
        option_map (fun e => residual_of (fst (fst e)) (snd (fst e)) (fst (snd e))) (rgrads t i j))).
(** the field is first cropped of its masked border (1386), in place; the result has the shape of the field (1402), so
    that a field that has been cropped raises.  Here a field whose border is not cropped. *)
Definition get_shear (fill : vfield -> res vfield) (f : vfield) : res (arr oreal) :=
  let* t := fill f in
  raise IndexErr when (Nat.ltb (length (ax (vg t))) 2 || Nat.ltb (length (ay (vg t))) 2)%bool ;;
  Ok (mkarr (d0 (cx t)) (d1 (cx t)) (fun i j =>
        option_map (fun e => shear_of (fst (fst e)) (snd (fst e)) (fst (snd e))) (rgrads t i j))).
(** the criteria computed cell by cell from get_gradients (field_treatment.py 97-143), for a field without masked cell:
    get_swirling_strength (964-1015), get_Nk_criterion (1123-1168), get_lambda2 (1233-1294, raw=False) and
    get_delta_criterion (1171-1230) *)
Definition from_grads {A} (F : R -> R -> R -> R -> A) (d : A) (f : vfield) : res (arr A) :=
  raise IndexErr when (Nat.ltb (length (ax (vg f))) 2 || Nat.ltb (length (ay (vg f))) 2)%bool ;;
  Ok (mkarr (d0 (cx f)) (d1 (cx f)) (fun i j =>
        match rgrads f i j with Some ((a, b), (c, e)) => F a b c e | None => d end)).
Definition get_swirling (eig : R -> R -> R -> R -> (R * R) * (R * R)) (f : vfield) : res (arr oreal) :=
  from_grads (fun a b c d => Some (swirling_of eig a b c d)) None f.
Definition get_nk (f : vfield) : res (arr oreal) := from_grads nk_of None f.
Definition get_lambda2 (eig : R -> R -> R -> R -> (R * R) * (R * R)) (f : vfield) : res (arr oreal) :=
  from_grads (fun a b c d => Some (lambda2_of eig a b c d)) None f.
Definition get_delta (eig : R -> R -> R -> R -> (R * R) * (R * R)) (f : vfield) : res (arr (oreal * bool)) :=
  from_grads (fun a b c d => let (v, m) := delta_of eig a b c d in (Some v, m)) (None, true) f.
