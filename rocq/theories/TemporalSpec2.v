(** * TemporalSpec2: fluctuations of a series of vector fields *)
From Verif Require Import Num Res ListLib SortLib Arr FieldModel ScalarFieldModel VectorFieldModel FieldSpec PointsSpec TemporalModel TemporalSpec.

(** the component [comp] of [d] is that of [f] minus that of [m], in base units, at cell (i, j) *)
Definition comp_minus (comp : vfield -> arr onum) (f m d : vfield) (i j : nat) : Prop :=
  exists a b c, at_ (comp f) i j = Some a /\ at_ (comp m) i j = Some b /\ at_ (comp d) i j = Some c /\
    (c * sc (vuv f) = a * sc (vuv f) - b * sc (vuv m))%num.
(** [d] is [f] minus [m], masked where one of them is *)
Definition vminus_mean (f m d : vfield) : Prop :=
  vg d = vg f /\ vuv d = vuv f /\ vf_wf d /\
  forall i j, i < length (ax (vg f)) -> j < length (ay (vg f)) ->
    at_ (vmsk d) i j = orb (at_ (vmsk f) i j) (at_ (vmsk m) i j) /\
    (at_ (vmsk d) i j = false -> comp_minus cx f m d i j /\ comp_minus cy f m d i j).
