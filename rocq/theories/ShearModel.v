(** * ShearModel: get_grad_field and get_shear_stress of a vector field (field_treatment/field_treatment.py), get_shear_stress
    of a profile at a wall (boundary_layer/boundary_layer.py). *)
From Verif Require Import Num Res ListLib SortLib Arr FieldModel ScalarFieldModel VectorFieldModel ProfileModel PointsModel GradModel Prof2Model Vf2Model.

(** ** get_grad_field (field_treatment.py:545-582).  The components of the field are stored again (566-567), which changes nothing.
    Other directions than 'x' and 'y' are refused. *)
Inductive gdir := GX | GY | GOther.
Definition get_grad_field (f : vfield) (d : gdir) : res vfield :=
  match d with
  | GOther => Err ValueErr
  | _ =>
    let* (ggg, g4) := vf_gradients f in
    let '(g1, g2, g3) := ggg in
    let gvx := match d with GX => g1 | _ => g3 end in
    let gvy := match d with GX => g2 | _ => g4 end in
    vf_import (ax (vg f)) (ay (vg f)) (values gvx) (values gvy) (afull (d0 (values gvx)) (d1 (values gvx)) false)
              (ux (vg f)) (uy (vg f)) (vuv f) (* 579-581: the unit of the field, not of its gradients *)
  end.

(** ** get_shear_stress (field_treatment.py:1032-1070), raw=False.  The result of fill() is lost (1048). *)
Definition field_shear (f : vfield) : res vfield :=
  let* o := vf_crop_masked_border f false true in
  let t := match o with None => f | Some t => t end in
  raise IndexErr when (Nat.ltb (length (ax (vg t))) 2 || Nat.ltb (length (ay (vg t))) 2)%bool ;;
  let hx := step0 (ax (vg t)) in let hy := step0 (ay (vg t)) in
  vf_import (ax (vg t)) (ay (vg t)) (grad0 hx (cy t)) (grad1 hy (cx t)) (vmsk t) (ux (vg t)) (uy (vg t)) (vuv t).

(** ** get_shear_stress (boundary_layer.py:1046-1160) of a profile, methods 'simple' (without respace) and 'wall_law_lin'.
    m^2/s times kg/m^3 is [visc_unit]; as for other quotients of units, the factor asNumber() is 1.  nu is checked (1082-1085). *)
Inductive wmethod := Simple | WallLin | WOther.
(** Profile.__mul__ by a number (profile.py:135-138, 179-180): the profile is built anew, without mask argument *)
Definition prof_times (p : profile) (k : num) (u : unit_t) : res profile := prof_new (px p) (map (oscale k) (yv p)) None (pux p) u.
Definition wall_shear (visc_unit : unit_t) (p : profile) (m : wmethod) (rho nu : num) : res profile :=
  raise ValueErr when (qleb nu 0%num) ;;
  match m with
  | Simple =>
    let* g := get_gradient p in
    let* a := prof_times g nu (puy g) in
    let* b := prof_times a rho (puy a) in
    prof_times b 1%num (unit_mul (puy b) visc_unit)
  | WallLin =>
    raise IndexErr when (negb (aligned p)) ;;
    let pos := map (fun x => qltb 0%num x) (px p) in
    let x := keep pos (px p) in
    let y := map (fun z => oscale rho (oscale nu (odiv (snd z) (Some (fst z))))) (combine x (keep pos (yv p))) in
    prof_new x y (Some (keep pos (pm p))) (pux p) (unit_mul (unit_div (puy p) (pux p)) visc_unit)
  | WOther => Err ValueErr
  end.
