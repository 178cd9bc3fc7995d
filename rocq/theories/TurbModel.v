(** * TurbModel: turbulence statistics of temporal vector fields (core/temporalvectorfields.py) *)
From Verif Require Import Num Res ListLib SortLib Arr FieldModel ScalarFieldModel VectorFieldModel ProfileModel TemporalModel.

(** ** VectorField.comp_x_as_sf, comp_y_as_sf (vectorfield.py 311-343) *)
Definition comp_as_sf (c : vfield -> arr onum) (f : vfield) : res sfield :=
  sf_import (ax (vg f)) (ay (vg f)) (c f) (Some (vmsk f)) (ux (vg f)) (uy (vg f)) (vuv f).
(** ** ScalarField.__pow__ (scalarfield.py 298-307) with the exponent 2: the unmasked values only, then the mask is set again *)
Definition osquare (v : onum) : onum := omul v v.
Definition sf_pow2 (f : sfield) : sfield :=
  mksf (sg f) (mkarr (d0 (raw f)) (d1 (raw f)) (fun i j => if at_ (msk f) i j then at_ (values f) i j else osquare (at_ (values f) i j)))
       (msk f) (unit_mul (uv f) (uv f)).
(** 1./2*(a**2 + b**2) *)
Definition half_squares (a b : sfield) : res sfield :=
  let* s := sf_add (sf_pow2 a) (sf_pow2 b) in Ok (sf_mul_num s (qq 1 2)).

(** ** get_mean_kinetic_energy (119-128) *)
Definition mean_kinetic_energy (t : tfield vfield) : res sfield :=
  let* m := tf_mean vf_ops t 1 in
  let* x := comp_as_sf cx m in
  let* y := comp_as_sf cy m in
  half_squares x y.
(** ** get_tke (130-145) *)
Definition tke_frame (mx my : sfield) (f : vfield) : res sfield :=
  let* x := comp_as_sf cx f in
  let* dx := sf_sub x mx in
  let* y := comp_as_sf cy f in
  let* dy := sf_sub y my in
  half_squares dx dy.
Definition get_tke (asort : list num -> list nat) (t : tfield vfield) : res (tfield sfield) :=
  let* m := tf_mean vf_ops t 1 in
  let* mx := comp_as_sf cx m in
  let* my := comp_as_sf cy m in
  let* fs := mapM (fun p => let* e := tke_frame mx my (snd p) in Ok (e, fst p, tfu t)) (tf_iter t) in
  out_res (add_all sf_ops asort tf_new fs).
(** ** get_mean_tke (156-159) *)
Definition mean_tke (asort : list num -> list nat) (t : tfield vfield) : res sfield :=
  let* e := get_tke asort t in tf_mean sf_ops e 1.

(** ** get_reynolds_stress (161-214): per cell, the sums of the products over the frames that do not mask it.
    Filling the array of a component (Vx, Vy) raises when a frame has another shape. *)
Definition rs_cell (c d : vfield -> arr onum) (fs : list vfield) (nmin : Z) (i j : nat) : onum :=
  let (s, n) := fold_left (fun (a : onum * nat) f => if at_ (vmsk f) i j then a
                             else (oadd (fst a) (omul (at_ (c f) i j) (at_ (d f) i j)), S (snd a))) fs (Some 0%num, 0%nat) in
  if (nmin <? Z.of_nat n)%Z then option_map (fun x => x / qn n)%num s else Some 0%num.
Definition rs_count (fs : list vfield) (i j : nat) : nat := length (filter (fun f => negb (at_ (vmsk f) i j)) fs).
Definition reynolds (asort : list num -> list nat) (t : tfield vfield) (nmin : Z) : res (sfield * sfield * sfield) :=
  let* tv := tf_fluct vf_ops asort t 1 in
  let g := tfg t in
  let n := length (ax g) in let m := length (ay g) in
  raise ValueErr when (existsb (fun f => negb (shape_is (cx f) (tfg tv) && shape_is (cy f) (tfg tv))) (tff tv)) ;;
  match tff t with
  | [] => Err ValueErr
  | f0 :: _ =>
    let u := unit_mul (vuv f0) (vuv f0) in
    let mask := mkarr n m (fun i j => (Z.of_nat (rs_count (tff tv) i j) <=? nmin)%Z) in
    let field c d := sf_import (ax g) (ay g) (mkarr n m (rs_cell c d (tff tv) nmin)) (Some mask) (ux g) (uy g) u in
    let* xx := field cx cx in
    let* yy := field cy cy in
    let* xy := field cx cy in
    Ok (xx, yy, xy)
  end.

(** ** get_time_auto_correlation (103-117).  numpy.mean of an array with a NaN is NaN; 0/0 is NaN too.
    The frames are taken on one grid (products of arrays of different shapes would raise or be broadcast). *)
Definition scalar_product (f h : vfield) : onum :=
  omean (flatten (mkarr (d0 (cx f)) (d1 (cx f)) (fun i j =>
     oadd (omul (at_ (cx f) i j) (at_ (cx h) i j)) (omul (at_ (cy f) i j) (at_ (cy h) i j))))).
Definition auto_correlation (t : tfield vfield) : res profile :=
  match tff t with
  | [] => Err IndexErr
  | f0 :: _ =>
    prof_new (tft t) (map (fun f => odiv (scalar_product f0 f) (scalar_product f0 f0)) (tff t)) None (tfu t) one_unit
  end.

(** ** VectorField.magnitude, magnitude_as_sf (vectorfield.py 411-440).  [root] is the square root of the runtime. *)
Definition magnitude_sf (root : num -> num) (f : vfield) : res sfield :=
  let v := mkarr (d0 (cx f)) (d1 (cx f)) (fun i j => if at_ (vmsk f) i j then None
             else option_map root (oadd (osquare (at_ (cx f) i j)) (osquare (at_ (cy f) i j)))) in
  sf_import (ax (vg f)) (ay (vg f)) v (Some (vmsk f)) (ux (vg f)) (uy (vg f)) (vuv f).
Definition tf_magnitude (root : num -> num) (asort : list num -> list nat) (t : tfield vfield) : res (tfield sfield) :=
  let* fs := mapM (fun p => let* e := magnitude_sf root (snd p) in Ok (e, fst p, tfu t)) (tf_iter t) in
  out_res (add_all sf_ops asort tf_new fs).
(** ** TemporalFields.__pow__ (temporalfields.py 147-154) with the exponent .5: add_field without time.  [uroot] is the square root of a unit. *)
Definition sf_root (root : num -> num) (uroot : unit_t -> unit_t) (f : sfield) : sfield :=
  mksf (sg f) (mkarr (d0 (raw f)) (d1 (raw f)) (fun i j => if at_ (msk f) i j then at_ (values f) i j else option_map root (at_ (values f) i j)))
       (msk f) (uroot (uv f)).
Definition tf_root (root : num -> num) (uroot : unit_t -> unit_t) (asort : list num -> list nat) (t : tfield sfield) : res (tfield sfield) :=
  out_res (add_all sf_ops asort tf_new (map (fun f => (sf_root root uroot f, 0%num, one_unit)) (tff t))).
(** ** get_turbulent_intensity (147-154) *)
Definition turb_intensity (root : num -> num) (uroot : unit_t -> unit_t) (asort : list num -> list nat) (t : tfield vfield) : res (tfield sfield) :=
  let* e := get_tke asort t in
  let* e2 := tf_mul_num sf_ops asort e (qq 2 3) in
  let* e3 := tf_root root uroot asort e2 in
  let* v := tf_magnitude root asort t in
  tf_div sf_ops asort e3 v.
