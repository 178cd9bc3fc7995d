(** * EvoModel: the temporal field of a system of vortices (IMTreatment/vortex_creation/vortex_creation.py), the conversions between vector
    fields and VF objects (vortex_detection/vortex_detection.py) and the masks as fields (core/scalarfield.py, core/vectorfield.py). *)
From Verif Require Import Num Res ListLib SortLib Arr FieldModel ScalarFieldModel VectorFieldModel ProfileModel TemporalModel PodModel.

(** ** VortexSystem.get_temporal_vector_field (vortex_creation.py:1028-1048).  [evolve dt] is get_evolution (1042), [field] is
    get_vector_field on the given axes (1035, 1043); they may fail.  [u] is the unit made from 'unit_time'. *)
Section Evo.
Context {S : Type} (evolve : num -> S -> res S) (field : S -> res vfield) (asort : list num -> list nat) (u : unit_t) (dt : num).
Fixpoint frames (n : nat) (s : S) (time : num) (t : tfield vfield) : res (tfield vfield) :=
  match n with
  | 0 => Ok t
  | Datatypes.S k =>
    let* s' := evolve dt s in
    let* f := field s' in
    let* t' := out_res (tf_add vf_ops asort t f time u) in
    frames k s' (time + dt)%num t'
  end.
Definition temporal_field (s : S) (nmb_it : nat) : res (tfield vfield) :=
  let* f := field s in
  let* t := out_res (tf_add vf_ops asort tf_new f 0%num u) in
  frames nmb_it s (0 + dt)%num t.
End Evo.

(** ** velocityfield_to_vf (vortex_detection.py:43-57) and VF.export_to_velocityfield (73-82).  The angles are those of the field: a
    parameter.  The units are not given to import_from_arrays (81): they are those by default, without dimension. *)
Record vfb := mkvfb { b_vx : arr onum; b_vy : arr onum; b_x : list num; b_y : list num; b_mask : arr bool; b_theta : arr onum; b_time : num }.
Definition to_vf (theta : vfield -> arr onum) (f : vfield) (time : num) : vfb :=
  mkvfb (atrans (cx f)) (atrans (cy f)) (ax (vg f)) (ay (vg f)) (atrans (vmsk f)) (atrans (theta f)) time.
Definition export_vf (v : vfb) : res vfield :=
  vf_import (b_x v) (b_y v) (atrans (b_vx v)) (atrans (b_vy v)) (atrans (b_mask v)) one_unit one_unit one_unit.

(** ** mask_as_sf (scalarfield.py:378-384, vectorfield.py:382-388): True is 1 and False is 0 *)
Definition of_bool (b : bool) : onum := Some (if b then 1%num else 0%num).
Definition sf_mask_as_sf (f : sfield) : res sfield :=
  sf_import (ax (sg f)) (ay (sg f)) (amap of_bool (msk f)) None (ux (sg f)) (uy (sg f)) (uv f).
Definition vf_mask_as_sf (f : vfield) : res sfield :=
  sf_import (ax (vg f)) (ay (vg f)) (amap of_bool (vmsk f)) None (ux (vg f)) (uy (vg f)) (vuv f).
