(** * MirrorModel: mirroring of scalar fields (core/scalarfield.py), vector fields (core/vectorfield.py) and series
    (core/temporalfields.py) *)
From Verif Require Import Num Res ListLib SortLib Arr FieldModel ScalarFieldModel VectorFieldModel ProfileModel PointsModel
  TemporalModel GradModel BlModel.

(** ** ScalarField.mirroring (scalarfield.py 1497-1725).  The direction is [DX] or [DY], anything else raises TypeError
    (1525); the position is a number. *)
(** 'left' and 'down' are [Low], 'right' and 'up' are [High] *)
Inductive side := Low | High.
Definition crop_along (f : sfield) (d : pdir) (iv : num * num) : res sfield :=
  match d with DX => sf_crop f (Some iv) None | DY => sf_crop f None (Some iv) end.
(** the side to mirror (1539-1592): [f] is the field as it was given, [g] the same without its masked border.  The result is
    the kept field, the side on which rows are added and the border used to measure the gap. *)
Definition mirror_side (f g : sfield) (d : pdir) (p : num) : res (sfield * side * num) :=
  let A := pos_axis f d in
  raise IndexErr when (Nat.ltb (length A) 2) ;;
  let first := nths A 0 in let lst := last A (qz 0) in
  let median := ((lst + first) / 2)%num in
  if qltb p first then Ok (g, Low, first)
  else if qltb lst p then Ok (g, High, lst)
  else if qltb p median then let* k := crop_along g d (p, lst) in Ok (k, Low, nths (pos_axis k d) 0)
  else if qltb median p then let* k := crop_along g d (first, p) in Ok (k, High, last (pos_axis k d) (qz 0))
  else Err ValueErr.
(** the number of rows to add (1593-1600), [None] is 'all'.  [A] is the axis of the field as it was given. *)
Definition mirror_rows (A : list num) (n : option Z) : Z :=
  let len := Z.of_nat (length A) in
  match n with None => (len - 1)%Z | Some k => if (len <? k)%Z then (len - 1)%Z else k end.
Definition mirror_count (A : list num) (s : side) (p b : num) (n : option Z) : Z :=
  let delta := (nths A 1 - nths A 0)%num in
  let gap := match s with Low => (- (p - b) / delta)%num | High => ((p - b) / delta)%num end in
  (qceil (qz (mirror_rows A n) + 2 * gap)%num - 1)%Z.
(** extend (1601-1604): a negative number of rows raises ValueError *)
Definition mirror_extend (k : sfield) (d : pdir) (s : side) (n : Z) : res sfield :=
  raise ValueErr when (n <? 0)%Z ;;
  let c := Z.to_nat n in
  match d, s with
  | DX, Low => sf_extend k c 0 0 0 None true
  | DX, High => sf_extend k 0 c 0 0 None true
  | DY, Low => sf_extend k 0 0 0 c None true
  | DY, High => sf_extend k 0 0 c 0 None true
  end.
(** the loop on the cells (1605-1630) *)
Definition mirror_point (d : pdir) (p x y : num) : num * num :=
  match d with DX => (p - (x - p), y)%num | DY => (x, p - (y - p))%num end.
Definition aput {A} (a : arr A) (i j : nat) (v : A) : arr A :=
  mkarr (d0 a) (d1 a) (fun i' j' => if (Nat.eqb i' i && Nat.eqb j' j)%bool then v else at_ a i' j').
(** values[i, j] = v; mask[i, j] = False (1629-1630): the getter of values writes NaN in the masked cells *)
Definition put_cell (f : sfield) (i j : nat) (v : num) : sfield :=
  mksf (sg f) (aput (values f) i j (Some v)) (aput (msk f) i j false) (uv f).
Definition mirror_cell ci (d : pdir) (p coef : num) (f : sfield) (ij : nat * nat) : res sfield :=
  let X := ax (sg f) in let Y := ay (sg f) in
  if negb (at_ (msk f) (fst ij) (snd ij)) then Ok f
  else
    let (mx, my) := mirror_point d p (nths X (fst ij)) (nths Y (snd ij)) in
    if (qltb mx (nths X 0) || qltb (last X (qz 0)) mx || qltb my (nths Y 0) || qltb (last Y (qz 0)) my)%bool then Ok f
    else
      let* v := get_value ci f mx my in
      Ok (match v with None => f | Some q => put_cell f (fst ij) (snd ij) (q * coef)%num end).
Fixpoint mirror_loop ci (d : pdir) (p coef : num) (l : list (nat * nat)) (f : sfield) : res sfield :=
  match l with
  | [] => Ok f
  | ij :: r => let* f' := mirror_cell ci d p coef f ij in mirror_loop ci d p coef r f'
  end.
(** the gap at the plane (1631-1722).  [GValue] is fill(kind='value', inplace=True).  [GLinear] is the first branch (1639-1668):
    the masked cells of the first line give the first row to fill and the number of rows; in direction x this is the row before
    the first masked one.  For 'nearest' and 'cubic' (1669-1722) the interpolators of scipy, which are also given the value at the
    plane, are parameters; another string raises ValueError. *)
Inductive gkind := GNone | GValue (c : num) | GLinear | GNearest | GCubic | GOther.
Definition masked_rows (f : sfield) (d : pdir) : list nat :=
  filter (fun k => match d with DX => at_ (msk f) k 0 | DY => at_ (msk f) 0 k end) (seq 0 (length (pos_axis f d))).
(** np.linspace(a, b, n + 2)[t + 1] *)
Definition between_lin (a b : onum) (n t : nat) : onum := lift2 (fun u v => u + (v - u) * qn (t + 1) / qn (n + 1))%num a b.
Definition row_at (v : arr onum) (d : pdir) (k l : nat) : onum := match d with DX => at_ v k l | DY => at_ v l k end.
Definition fill_rows (v : arr onum) (d : pdir) (start n lo hi : nat) : arr onum :=
  mkarr (d0 v) (d1 v) (fun i j =>
    let k := match d with DX => i | DY => j end in
    let l := match d with DX => j | DY => i end in
    if (Nat.leb start k && Nat.ltb k (start + n))%bool then between_lin (row_at v d lo l) (row_at v d hi l) n (k - start)
    else at_ v i j).
Definition linear_rows (f : sfield) (d : pdir) : res (arr onum) :=
  let len := length (pos_axis f d) in
  match masked_rows f d with
  | [] => Err IndexErr
  | a :: _ =>
    let n := length (masked_rows f d) in
    match d with
    | DX => (* ind_last = a - 1; the negative indices of numpy count from the end *)
      match a with
      | 0 => if Nat.ltb len 2 then Err IndexErr else if Nat.eqb n 1 then Ok (values f) else Err ValueErr
      | 1 => if Nat.leb len n then Err IndexErr else Ok (fill_rows (values f) DX 0 n (len - 1) n)
      | S (S b) => if Nat.leb len (b + 1 + n) then Err IndexErr else Ok (fill_rows (values f) DX (b + 1) n b (b + 1 + n))
      end
    | DY =>
      if Nat.leb len (a + n) then Err IndexErr
      else Ok (fill_rows (values f) DY a n (if Nat.eqb a 0 then len - 1 else a - 1) (a + n))
    end
  end.
Definition plug (nearest : interps) (f : sfield) (w : interps) (retry : bool) : arr onum :=
  let v := values f in
  mkarr (d0 v) (d1 v) (fun i j =>
    let r := if at_ (msk f) i j then w f i j else at_ v i j in
    match r with None => if retry then nearest f i j else None | Some q => Some q end).
Definition mirror_gap (nearest cubic : interps) (f : sfield) (d : pdir) (gk : gkind) : res sfield :=
  let store v := let* f1 := set_values f v in set_mask_bool f1 false in
  if negb (any_masked f) then Ok f
  else match gk with
       | GNone => Ok f
       | GValue c => sf_fill_value f c
       | GLinear => let* v := linear_rows f d in store v
       | GNearest => store (plug nearest f nearest false)
       | GCubic => store (plug nearest f cubic true)
       | GOther => Err ValueErr
       end.
Definition without_border (f : sfield) : res sfield :=
  let* o := crop_masked_border f false in Ok (match o with None => f | Some g => g end).
Definition sf_mirroring ci (nearest cubic : interps) (f : sfield) (d : pdir) (p : num) (n : option Z) (coef : num) (gk : gkind)
  : res sfield :=
  let* g := without_border f in
  let* ksb := mirror_side f g d p in
  let k := fst (fst ksb) in let s := snd (fst ksb) in let b := snd ksb in
  let* e := mirror_extend k d s (mirror_count (pos_axis f d) s p b n) in
  let* r := mirror_loop ci d p coef (aidx (length (ax (sg e))) (length (ay (sg e)))) e in
  mirror_gap nearest cubic r d gk.

(** ** VectorField.mirroring (vectorfield.py 1116-1186): the coefficient is one number, with the sign changed on the component
    normal to the plane, or one number per component *)
Inductive mcoef := COne (c : num) | CTwo (a b : num).
Definition comp_coefs (d : pdir) (c : mcoef) : num * num :=
  match c with
  | COne c => match d with DX => (- (1) * c, 1 * c)%num | DY => (1 * c, - (1) * c)%num end
  | CTwo a b => (a, b)
  end.
Definition vf_mirroring ci (nearest cubic : interps) (f : vfield) (d : pdir) (p : num) (n : option Z) (c : mcoef)
  (gx gy : gkind) : res vfield :=
  let* sx := comp_x_sf f in
  let* sy := comp_y_sf f in
  let* vx := sf_mirroring ci nearest cubic sx d p n (fst (comp_coefs d c)) gx in
  let* vy := sf_mirroring ci nearest cubic sy d p n (snd (comp_coefs d c)) gy in
  vf_import (ax (sg vx)) (ay (sg vx)) (values vx) (values vy) (amap2 orb (msk vx) (msk vy)) (ux (sg vx)) (uy (sg vy)) (uv vx).

(** ** TemporalFields.mirroring (temporalfields.py 1372-1417), inplace=False: each frame of a deep copy is mirrored in place.  The
    assignments of 1411-1412 create attributes of another name (private names carry the name of the class): the axes of the series
    stay as they were. *)
Definition tf_mirroring {F} (mir : F -> res F) (t : tfield F) : res (tfield F) :=
  let* fs := mapM mir (tff t) in
  raise IndexErr when (match tff t with [] => true | _ => false end) ;;
  Ok (mktf (tfg t) fs (tfa t) (tft t) (tfu t)).
