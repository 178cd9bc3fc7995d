(** * WallModel: extrapolation of a field until a wall.
    Models field_treatment/field_treatment.py 1133-1238 (extrapolate_until_wall), for scalar and vector fields.
    The interpolators of scipy that the fill uses are parameters, as in GradModel.  Not modelled: floating point rounding (np.int of an
    exact quotient here) and the type tests of arguments that are not of the annotated types. *)
From Verif Require Import Num Res ListLib Arr FieldModel ScalarFieldModel VectorFieldModel GradModel PodModel.

(** direction (1163-1166): 'x', 'y' or another string *)
Inductive wdir : Type := WX | WY | WOther.
Definition waxis (d : wdir) (g : grid) : list num := match d with WX => ax g | _ => ay g end.
(** np.int: truncation towards zero (1184, 1187, 1191, 1194) *)
Definition qtrunc (a : num) : Z := if (0 <=? a)%num then qfloor a else qceil a.
(** 1169-1174 *)
Definition wall_inside (l : list num) (position : num) : bool :=
  (qltb position (nths l (length l - 1)) && qltb (nths l 0) position)%bool.
(** the side and the number of added lines (1182-1195).  A null step gives an infinite or undefined quotient, which np.int refuses. *)
Definition wall_count (l : list num) (position : num) : res (bool * Z) :=
  let d := (nths l 1 - nths l 0)%num in
  raise GenericErr when (qeqb d 0)%num ;;
  if (position <? nths l 0)%num then Ok (true, qtrunc ((nths l 0 - position) / d)%num)
  else Ok (false, qtrunc ((position - nths l 1) / d)%num).
(** the checks (1158-1178), and the interpolator that the kind designates *)
Definition wall_checks (g : grid) (d : wdir) (position : num) (kind : fkind) : res (bool * Z) :=
  raise IndexErr when (Nat.ltb (length (ax g)) 2 || Nat.ltb (length (ay g)) 2)%bool ;;
  match d with
  | WOther => Err ValueErr
  | _ => raise ValueErr when (wall_inside (waxis d g) position) ;;
         match kind with
         | FLinear | FCubic => wall_count (waxis d g) position
         | _ => Err ValueErr
         end
  end.
Definition wall_interp (linear cubic : interps) (kind : fkind) : interps := match kind with FCubic => cubic | _ => linear end.
(** the lines added on each side; a negative number is refused: by ScalarField.extend (scalarfield.py 1461-1462), and for vector fields
    because the shapes do not match any more (vectorfield.py 1097-1102) *)
Definition wall_sides (d : wdir) (low : bool) (n : nat) : nat * nat * nat * nat :=
  match d, low with
  | WX, true => (n, 0, 0, 0) | WX, false => (0, n, 0, 0)
  | _, true => (0, 0, 0, n) | _, false => (0, 0, n, 0)
  end.
(** values[0, :] and the like *)
Definition on_wall (d : wdir) (low : bool) (n m i j : nat) : bool :=
  match d with
  | WX => if low then Nat.eqb i 0 else Nat.eqb (S i) n
  | _ => if low then Nat.eqb j 0 else Nat.eqb (S j) m
  end.
Definition wall_set {A} (d : wdir) (low : bool) (x : A) (a : arr A) : arr A :=
  mkarr (d0 a) (d1 a) (fun i j => if on_wall d low (d0 a) (d1 a) i j then x else at_ a i j).

(** ScalarField (1197-1216) *)
Definition sf_until_wall (nearest linear cubic : interps) (f : sfield) (d : wdir) (position : num) (kind : fkind) : res sfield :=
  let* (low, n) := wall_checks (sg f) d position kind in
  raise ValueErr when (n <? 0)%Z ;;
  let '(nl, nr, nu, nd) := wall_sides d low (Z.to_nat n) in
  let* f1 := sf_extend f nl nr nu nd None true in
  let f2 := mksf (sg f1) (wall_set d low (Some 0%num) (values f1)) (wall_set d low false (msk f1)) (uv f1) in
  sf_fill_in nearest (wall_interp linear cubic kind) cubic f2.
(** VectorField (1218-1236) *)
Definition vf_until_wall (nearest linear cubic : interps) (f : vfield) (d : wdir) (position : num) (kind : fkind) : res vfield :=
  let* (low, n) := wall_checks (vg f) d position kind in
  raise ValueErr when (n <? 0)%Z ;;
  let '(nl, nr, nu, nd) := wall_sides d low (Z.to_nat n) in
  let* f1 := vf_extend f nl nr nu nd in
  let f2 := mkvf (vg f1) (wall_set d low (Some 0%num) (cx f1)) (wall_set d low (Some 0%num) (cy f1)) (wall_set d low false (vmsk f1)) (vuv f1) in
  vf_fill_in nearest (wall_interp linear cubic kind) cubic f2.
