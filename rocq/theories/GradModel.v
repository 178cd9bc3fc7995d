(** * GradModel: filling, gradients and the criteria that need no square root.
    ScalarField.fill and VectorField.fill (core/scalarfield.py, core/vectorfield.py), get_gradients
    (field_treatment/field_treatment.py), get_vorticity, get_divergence, get_stokes_vorticity, get_q_criterion,
    get_enstrophy and the neighbourhoods of the non local criteria (vortex_criterions/vortex_criterions.py).
    The units of the results are quotients and products of units: the numerical factor asNumber() of such a unit, which
    the code moves into the values, is 1 in this representation. *)
From Verif Require Import Num Res ListLib Arr FieldModel ScalarFieldModel VectorFieldModel ProfileModel PointsModel.

(** ** ScalarField.fill (1789-1880), inplace=False, crop=False.  The three interpolators of scipy are parameters; their own
    exceptions (not enough points) are not modelled. *)
Inductive fkind := FValue | FNearest | FLinear | FCubic | FOther.
Definition interps := (sfield -> nat -> nat -> onum)%type.
Definition sf_fill (nearest linear cubic : interps) (f : sfield) (kind : fkind) (value : num) : res sfield :=
  let v := values f in
  let smooth (w : interps) := (* 1855-1868: what the interpolator leaves as NaN is given to the nearest one *)
    mkarr (d0 v) (d1 v) (fun i j =>
      match (if at_ (msk f) i j then w f i j else at_ v i j) with None => nearest f i j | Some q => Some q end) in
  let* v' :=
    if negb (any_masked f) then Ok v
    else match kind with
         | FValue => Ok (mkarr (d0 v) (d1 v) (fun i j => if at_ (msk f) i j then Some value else at_ v i j))
         | FNearest => Ok (mkarr (d0 v) (d1 v) (fun i j => if at_ (msk f) i j then nearest f i j else at_ v i j))
         | FLinear => Ok (smooth linear)
         | FCubic => Ok (smooth cubic)
         | FOther => Err ValueErr
         end in
  sf_import (ax (sg f)) (ay (sg f)) v' None (ux (sg f)) (uy (sg f)) (uv f).
(** comp_x_as_sf, comp_y_as_sf (vectorfield.py 311-318, 337-345) *)
Definition comp_x_sf (f : vfield) : res sfield :=
  sf_import (ax (vg f)) (ay (vg f)) (cx f) (Some (vmsk f)) (ux (vg f)) (uy (vg f)) (vuv f).
Definition comp_y_sf (f : vfield) : res sfield :=
  sf_import (ax (vg f)) (ay (vg f)) (cy f) (Some (vmsk f)) (ux (vg f)) (uy (vg f)) (vuv f).
(** VectorField.fill (910-966), inplace=False, crop=False *)
Definition vf_fill (nearest linear cubic : interps) (f : vfield) (kind : fkind) (vx vy : num) : res vfield :=
  let* x := comp_x_sf f in
  let* y := comp_y_sf f in
  let* x' := sf_fill nearest linear cubic x kind vx in
  let* y' := sf_fill nearest linear cubic y kind vy in
  vf_import (ax (vg f)) (ay (vg f)) (values x') (values y') (afull (d0 (values x')) (d1 (values x')) false)
            (ux (vg f)) (uy (vg f)) (vuv f).

(** ** numpy.gradient along an axis of n points with the step h: the two points used at i, and the distance between them *)
Definition gpair (n i : nat) : nat * nat :=
  if Nat.eqb i 0 then (0, 1) else if Nat.eqb (S i) n then (i - 1, i) else (i - 1, i + 1).
Definition gstep (n i : nat) (h : num) : num := if (Nat.eqb i 0 || Nat.eqb (S i) n)%bool then h else (2 * h)%num.
Definition grad0 (h : num) (a : arr onum) : arr onum :=
  mkarr (d0 a) (d1 a) (fun i j => let (p, q) := gpair (d0 a) i in
                                  odiv (osub (at_ a q j) (at_ a p j)) (Some (gstep (d0 a) i h))).
Definition grad1 (h : num) (a : arr onum) : arr onum :=
  mkarr (d0 a) (d1 a) (fun i j => let (p, q) := gpair (d1 a) j in
                                  odiv (osub (at_ a i q) (at_ a i p)) (Some (gstep (d1 a) j h))).
(** on a masked array: masked when a point used is (the mask of the point itself is not looked at), or for a null step *)
Definition gmask0 (h : num) (m : arr bool) : arr bool :=
  mkarr (d0 m) (d1 m) (fun i j => let (p, q) := gpair (d0 m) i in (at_ m p j || at_ m q j || qeqb h 0)%num%bool).
Definition gmask1 (h : num) (m : arr bool) : arr bool :=
  mkarr (d0 m) (d1 m) (fun i j => let (p, q) := gpair (d1 m) j in (at_ m i p || at_ m i q || qeqb h 0)%num%bool).
Definition gmask (hx hy : num) (m : arr bool) : arr bool := amap2 orb (gmask0 hx m) (gmask1 hy m).
Definition step0 (l : list num) : num := (nths l 1 - nths l 0)%num.

(** ** get_gradients (35-162), raw=False.  What numpy.ma keeps under the mask is not modelled: it is hidden. *)
Definition sf_gradients (f : sfield) : res (sfield * sfield) :=
  raise IndexErr when (Nat.ltb (length (ax (sg f))) 2 || Nat.ltb (length (ay (sg f))) 2)%bool ;;
  let hx := step0 (ax (sg f)) in let hy := step0 (ay (sg f)) in
  let m := gmask hx hy (msk f) in
  let imp v u := sf_import (ax (sg f)) (ay (sg f)) v (Some m) (ux (sg f)) (uy (sg f)) u in
  let* gx := imp (grad0 hx (values f)) (unit_div (uv f) (ux (sg f))) in
  let* gy := imp (grad1 hy (values f)) (unit_div (uv f) (uy (sg f))) in
  Ok (gx, gy).
Definition vf_gradients (f : vfield) : res (sfield * sfield * sfield * sfield) :=
  raise IndexErr when (Nat.ltb (length (ax (vg f))) 2 || Nat.ltb (length (ay (vg f))) 2)%bool ;;
  let hx := step0 (ax (vg f)) in let hy := step0 (ay (vg f)) in
  let m := gmask hx hy (vmsk f) in
  let imp v u := sf_import (ax (vg f)) (ay (vg f)) v (Some m) (ux (vg f)) (uy (vg f)) u in
  let ux' := unit_div (vuv f) (ux (vg f)) in let uy' := unit_div (vuv f) (uy (vg f)) in
  let* g1 := imp (grad0 hx (cx f)) ux' in
  let* g2 := imp (grad1 hy (cx f)) uy' in
  let* g3 := imp (grad0 hx (cy f)) ux' in
  let* g4 := imp (grad1 hy (cy f)) uy' in
  Ok (g1, g2, g3, g4).
(** the branch of profiles (145-160), for a profile that is evenly spaced: evenly_space gives a copy of it (profile.py
    1727-1730).  np.gradient is called without the step. *)
Definition prof_gradient (p : profile) : res profile :=
  raise IndexErr when (Nat.ltb (length (px p)) 2) ;;
  let y := yv p in
  let n := length y in
  let g := map (fun i => let (a, b) := gpair n i in odiv (osub (nth b y None) (nth a y None)) (Some (gstep n i (qz 1)))) (seq 0 n) in
  prof_new (px p) g (Some (pm p)) (pux p) (unit_div (puy p) (pux p)).

(** ** get_vorticity (831-884) and get_divergence (775-828) of one field, raw=False.  [fill] is VectorField.fill with its
    default arguments. *)
Definition vf_vorticity (fill : vfield -> res vfield) (f : vfield) : res sfield :=
  let* t := fill f in
  raise IndexErr when (Nat.ltb (length (ax (vg t))) 2 || Nat.ltb (length (ay (vg t))) 2)%bool ;;
  let exy := grad1 (step0 (ay (vg t))) (cx t) in
  let eyx := grad0 (step0 (ax (vg t))) (cy t) in
  sf_import (ax (vg t)) (ay (vg t)) (amap (fun a => odiv a (Some 2%num)) (amap2 osub eyx exy)) (Some (vmsk t))
            (ux (vg t)) (uy (vg t)) (unit_div (vuv f) (ux (vg f))).
Definition vf_divergence (fill : vfield -> res vfield) (f : vfield) : res sfield :=
  let* t := fill f in
  raise IndexErr when (Nat.ltb (length (ax (vg t))) 2 || Nat.ltb (length (ay (vg t))) 2)%bool ;;
  let exx := grad0 (step0 (ax (vg t))) (cx t) in
  let eyy := grad1 (step0 (ay (vg t))) (cy t) in
  sf_import (ax (vg t)) (ay (vg t)) (amap2 oadd exx eyy) (Some (vmsk t))
            (ux (vg t)) (uy (vg t)) (unit_div (vuv f) (ux (vg f))).

(** ** get_stokes_vorticity (887-961), raw=False, a window of w >= 0 points *)
Fixpoint trapz (h : num) (l : list onum) : onum :=
  match l with
  | a :: ((b :: _) as r) => oadd (odiv (oscale h (oadd a b)) (Some 2%num)) (trapz h r)
  | _ => Some 0%num
  end.
Definition qmean (l : list num) : num := (qsum l / qn (length l))%num.
(** np.arange(start, stop, h) *)
Definition arange (start stop h : num) : list num :=
  map (fun k => start + qn k * h)%num (seq 0 (Z.to_nat (qceil ((stop - start) / h)))).
Definition window_axis (l : list num) (w : nat) : list num :=
  let h := step0 l in
  arange (qmean (firstn w l)) (qmean (map (fun x => x + h * qq 9 10)%num (skipn (length l - w) l))) h.
Definition circulation (vx vy : arr onum) (hx hy : num) (w i j : nat) : onum :=
  let side (f : nat -> onum) := map f (seq 0 w) in
  oadd (oadd (oadd (oadd (Some 0%num)
    (trapz hy (side (fun k => oneg (at_ vy i (j + k))))))
    (trapz hy (side (fun k => at_ vy (i + w - 1) (j + k)))))
    (trapz hx (side (fun k => at_ vx (i + k) j))))
    (trapz hx (side (fun k => oneg (at_ vx (i + k) (j + w - 1))))).
Definition window_masked (m : arr bool) (w i j : nat) : bool :=
  existsb (fun p => at_ m (i + fst p) (j + snd p)) (aidx w w).
Definition vf_stokes (f : vfield) (w : nat) : res sfield :=
  raise IndexErr when (Nat.ltb (length (ax (vg f))) 2 || Nat.ltb (length (ay (vg f))) 2)%bool ;;
  raise ValueErr when (Nat.eqb w 0) ;;
  let hx := step0 (ax (vg f)) in let hy := step0 (ay (vg f)) in
  let x := window_axis (ax (vg f)) w in let y := window_axis (ay (vg f)) w in
  let n := length (ax (vg f)) + 1 - w in let m := length (ay (vg f)) + 1 - w in
  raise IndexErr when (negb (Nat.eqb (n * m) 0) && (Nat.ltb (length x) n || Nat.ltb (length y) m))%bool ;;
  let inside i j := (Nat.ltb i n && Nat.ltb j m)%bool in
  let mask := mkarr (length x) (length y) (fun i j => (inside i j && window_masked (vmsk f) w i j)%bool) in
  let vort := mkarr (length x) (length y) (fun i j =>
    if (inside i j && negb (at_ mask i j))%bool
    then oscale (1 / (hx * hy * (qn w * qn w)))%num (circulation (cx f) (cy f) hx hy w i j) else Some 0%num) in
  sf_import x y vort (Some mask) (ux (vg f)) (uy (vg f)) (unit_div (vuv f) (ux (vg f))).

(** ** get_q_criterion (1077-1120), raw=False.  np.array of the masked array drops its mask: [junk] is what numpy.ma leaves
    under it.  [user] is the argument mask. *)
Definition half : num := qq 1 2.
Definition osq (a : onum) : onum := omul a a.
Definition q_at (exx exy eyx eyy : onum) : onum :=
  let rot2 := oscale half (osq (osub exy eyx)) in
  let shear2 := oadd (oadd (osq exx) (oscale half (osq (oadd exy eyx)))) (osq eyy) in
  osub (oscale half rot2) shear2.
Definition vf_qcrit (junk : nat -> nat -> onum) (f : vfield) (user : option (arr bool)) : res sfield :=
  raise IndexErr when (Nat.ltb (length (ax (vg f))) 2 || Nat.ltb (length (ay (vg f))) 2)%bool ;;
  let hx := step0 (ax (vg f)) in let hy := step0 (ay (vg f)) in
  let m := gmask hx hy (vmsk f) in
  let q := mkarr (d0 (cx f)) (d1 (cx f)) (fun i j =>
    if at_ m i j then junk i j
    else q_at (at_ (grad0 hx (cx f)) i j) (at_ (grad1 hy (cx f)) i j) (at_ (grad0 hx (cy f)) i j) (at_ (grad1 hy (cy f)) i j)) in
  let u := unit_div (vuv f) (ux (vg f)) in
  sf_import (ax (vg f)) (ay (vg f)) q (Some (match user with None => afull (d0 q) (d1 q) false | Some a => a end))
            (ux (vg f)) (uy (vg f)) (unit_mul u u).

(** ** _non_local_criterion_precomputation (691-746), dev_pass=False: the neighbours (shifts of indices), the masked cells,
    the cells with a masked neighbour and the cells near the border *)
Record neigh : Type := mkneigh { nmotif : list (Z * Z); nmask : arr bool; nsurr : nat -> nat -> bool; nborder : nat -> nat -> bool }.
Definition zsub (c p : Z * Z) : Z * Z := (fst p - fst c, snd p - snd c)%Z.
Definition motif_ind (n m : nat) (radius : num) : res (list (Z * Z)) :=
  let c := (Z.of_nat (n / 2), Z.of_nat (m / 2)) in
  let* l := points_around_ind (qz (fst c)) (qz (snd c)) radius in
  np_delete [Z.of_nat (length l / 2)] (map (zsub c) l).
Definition motif_pos (g : grid) (radius : num) : res (list (Z * Z)) :=
  let c := (Z.of_nat (length (ax g) / 2), Z.of_nat (length (ay g) / 2)) in
  let* l := points_around g (nths (ax g) (length (ax g) / 2)) (nths (ay g) (length (ay g) / 2)) radius in
  Ok (map (zsub c) l).
Definition surrounded (motif : list (Z * Z)) (m : arr bool) (i j : nat) : bool :=
  existsb (fun p => at_ m (fst p) (snd p) &&
                    existsb (fun s => (Z.of_nat (fst p) + fst s =? Z.of_nat i)%Z && (Z.of_nat (snd p) + snd s =? Z.of_nat j)%Z) motif)%bool
          (aidx (d0 m) (d1 m)).
Definition border_ind (n m : nat) (radius : num) (i j : nat) : bool :=
  let r := (qfloor radius - 1)%Z in
  let near n i := ((Z.of_nat i <=? r) || (Z.of_nat n - 1 - r <=? Z.of_nat i))%Z%bool in
  (near n i || near m j)%bool.
Definition border_pos (g : grid) (radius : num) (i j : nat) : bool :=
  let d := (radius - (step0 (ax g) + step0 (ay g)) / 2)%num in
  let near l i := (qleb (nths l i) (nths l 0 + d) || qleb (last l 0 - d) (nths l i))%num%bool in
  (near (ax g) i || near (ay g) j)%bool.
Definition neighbourhood (f : vfield) (user : option (arr bool)) (radius : num) (ind : bool) : res neigh :=
  let n := length (ax (vg f)) in let m := length (ay (vg f)) in
  let mask := match user with None => vmsk f | Some a => amap2 orb a (vmsk f) end in
  let* motif := if ind then motif_ind n m radius else motif_pos (vg f) radius in
  Ok (mkneigh motif mask (surrounded motif mask) (if ind then border_ind n m radius else border_pos (vg f) radius)).
Definition skipped (k : neigh) (i j : nat) : bool := (at_ (nmask k) i j || nsurr k i j || nborder k i j)%bool.
(** reading an array at a cell shifted by a neighbour: a negative index counts from the end *)
Definition read_at (a : arr onum) (i j : nat) (s : Z * Z) : res onum :=
  match norm_ind (d0 a) (Z.of_nat i + fst s), norm_ind (d1 a) (Z.of_nat j + snd s) with
  | Some p, Some q => Ok (at_ a p q)
  | _, _ => Err IndexErr
  end.
(** the exceptions of the loop over the cells: the first cell that raises *)
Definition each_cell {A} (n m : nat) (f : nat -> nat -> res A) : res unit :=
  let* _ := mapM (fun p => f (fst p) (snd p)) (aidx n m) in Ok tt.
Definition cell_or {A} (d : A) (r : res A) : A := match r with Ok a => a | Err _ => d end.

(** ** get_enstrophy (607-688), raw=False; [vorticity] is get_vorticity *)
Definition enstrophy_at (v : arr onum) (motif : list (Z * Z)) (hx hy : num) (i j : nat) : res onum :=
  let* l := mapM (read_at v i j) motif in
  Ok (oscale (hx * hy)%num (osum (map osq l))).
Definition vf_enstrophy (vorticity : vfield -> res sfield) (f : vfield) (user : option (arr bool)) (radius : num) (ind : bool)
  : res sfield :=
  let* w := vorticity f in
  let* k := neighbourhood f user radius ind in
  raise IndexErr when (Nat.ltb (length (ax (vg f))) 2 || Nat.ltb (length (ay (vg f))) 2)%bool ;;
  let n := length (ax (vg f)) in let m := length (ay (vg f)) in
  let cell i j := if skipped k i j then Ok (Some 0%num)
                  else enstrophy_at (values w) (nmotif k) (step0 (ax (vg f))) (step0 (ay (vg f))) i j in
  let* _ := each_cell n m cell in
  sf_import (ax (vg f)) (ay (vg f)) (mkarr n m (fun i j => cell_or None (cell i j)))
            (Some (mkarr n m (skipped k))) (ux (vg f)) (uy (vg f))
            (unit_mul (unit_mul (unit_mul (uv w) (uv w)) (ux (vg f))) (uy (vg f))).
