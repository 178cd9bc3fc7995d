(** * JacModel: get_jacobian_eigenproperties and get_Kenwright_field (field_treatment/field_treatment.py 369-542).
    The field holds rational numbers (and NaN); eigenvalues and eigenvectors are made of real numbers.  numpy.linalg.eig is a parameter.
    The imports are on the axes of a field, which are increasing: arrays are kept as they are, with NaN in masked cells. *)
From Coq Require Import Reals Lra Qreals.
From Verif Require Import Num Res ListLib Arr FieldModel ScalarFieldModel VectorFieldModel PointsModel GradModel CriterionModel.
#[local] Open Scope R_scope.

Notation cnum := (R * R)%type.
(** numpy.linalg.eig: the two eigenvalues and the two columns, complex numbers being (real part, imaginary part) *)
Notation eig_t := (R -> R -> R -> R -> (cnum * cnum) * ((cnum * cnum) * (cnum * cnum)))%type.
(** complex numbers are compared by real parts, then by imaginary parts: numpy.argmax of the two values is 1 when the second is greater *)
Definition cgreater (a b : cnum) : bool :=
  if Rlt_dec (fst b) (fst a) then true else if Rlt_dec (fst a) (fst b) then false else if Rlt_dec (snd b) (snd a) then true else false.
(** what is stored in a cell: the eigenvalues, and the eigenvectors, whose components are stored in arrays of floats: the imaginary parts are
    lost (413-416, 430-437) *)
Record eigcell := mkcell { val1 : cnum; val2 : cnum; vec1 : R * R; vec2 : R * R }.
Definition real_vec (v : cnum * cnum) : R * R := (fst (fst v), fst (snd v)).
Definition eig_cell (eig : eig_t) (a b c d : R) : eigcell :=
  let '((l0, l1), (v0, v1)) := eig a b c d in
  if cgreater l1 l0 then mkcell l1 l0 (real_vec v1) (real_vec v0) else mkcell l0 l1 (real_vec v0) (real_vec v1).
Definition zero_cell : eigcell := mkcell (0, 0) (0, 0) (0, 0) (0, 0).
(** the loop (417-437): masked cells keep the initial zeros; numpy raises on a matrix that holds NaN *)
Definition eig_arrays (eig : eig_t) (f : vfield) : res (arr eigcell * arr bool) :=
  raise IndexErr when (Nat.ltb (length (ax (vg f))) 2 || Nat.ltb (length (ay (vg f))) 2)%bool ;;
  let m := gmask (step0 (ax (vg f))) (step0 (ay (vg f))) (vmsk f) in
  let cell i j := if at_ m i j then Ok zero_cell
                  else match rgrads f i j with Some ((a, b), (c, d)) => Ok (eig_cell eig a b c d) | None => Err GenericErr end in
  let* _ := each_cell (d0 (cx f)) (d1 (cx f)) cell in
  Ok (mkarr (d0 (cx f)) (d1 (cx f)) (fun i j => cell_or zero_cell (cell i j)), m).
(** raw=True (444-450) *)
Definition eig_raw (eig : eig_t) (f : vfield) : res (arr eigcell) := let* (v, _) := eig_arrays eig f in Ok v.
(** raw=False (451-490): the fields, with their common mask, and the unit "" given to all of them *)
Definition eig_fields (eig : eig_t) (no_unit : unit_t) (f : vfield) : res (arr (option eigcell) * arr bool * unit_t) :=
  let* (v, m) := eig_arrays eig f in
  Ok (mkarr (d0 v) (d1 v) (fun i j => if at_ m i j then None else Some (at_ v i j)), m, no_unit).

(** get_Kenwright_field (518-527): the vector products of the eigenvectors and the velocity, NaN when one of them is *)
Definition cross_at (e : option (R * R)) (v : option (R * R)) : oreal :=
  match e, v with Some e, Some v => Some (fst e * snd v - snd e * fst v) | _, _ => None end.
Definition kenwright (eig : eig_t) (no_unit : unit_t) (f : vfield) : res (arr oreal * arr oreal) :=
  let* (vm, _) := eig_fields eig no_unit f in
  let v := fst vm in
  let k g := mkarr (length (ax (vg f))) (length (ay (vg f))) (fun i j => cross_at (option_map g (at_ v i j)) (ovec (at_ (cx f) i j) (at_ (cy f) i j))) in
  Ok (k vec1, k vec2).
(** raw=False (531-542): masked where NaN; the unit is the one of the field *)
Definition kenwright_fields (eig : eig_t) (no_unit : unit_t) (f : vfield) : res ((arr oreal * arr bool) * (arr oreal * arr bool) * unit_t) :=
  let* (a, b) := kenwright eig no_unit f in
  let withmask (k : arr oreal) := (k, amap (fun x => match x with None => true | Some _ => false end) k) in
  Ok (withmask a, withmask b, vuv f).
