(** * CompsModel: the components of temporal vector fields as temporal scalar fields, and the places that are always masked as a field
    (IMTreatment/core/temporalvectorfields.py 39-67, temporalfields.py 219-232). *)
From Verif Require Import Num Res ListLib SortLib Arr FieldModel ScalarFieldModel VectorFieldModel ProfileModel PointsModel TemporalModel TurbModel EvoModel.

(** ** Vx_as_sf (39-45) with [c = cx], Vy_as_sf with [c = cy]: here the components are all taken before they are added *)
Definition tv_comp_as_sf (asort : list num -> list nat) (c : vfield -> arr onum) (t : tfield vfield) : res (tfield sfield) :=
  let* fs := mapM (fun p => let* s := comp_as_sf c (fst p) in Ok (s, snd p)) (combine (tff t) (tft t)) in
  out_res (add_all sf_ops asort tf_new (map (fun p => (fst p, snd p, tfu t)) fs)).
(** ** mask_cum_as_sf (225-232) *)
Definition tf_mask_cum_as_sf {F} (ops : fops F) (t : tfield F) : res sfield :=
  sf_import (ax (tfg t)) (ay (tfg t)) (amap of_bool (tf_mask_cum ops t)) None (ux (tfg t)) (uy (tfg t)) one_unit.
