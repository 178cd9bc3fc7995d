(** * CohSpec: what becomes of the modes when a coherence is asked for. *)
From Verif Require Import Num Res ListLib Arr FieldModel ScalarFieldModel VectorFieldModel ProfileModel PointsModel PointsSpec TemporalModel GradModel PodModel.

(** [k] is the mean of the values of an array: NaN when one of them is, or when there is none *)
Definition array_mean (a : arr onum) (k : onum) : Prop :=
  match k with
  | Some m => exists ns, flatten a = map Some ns /\ ns <> [] /\ (m * qn (length ns) = total ns)%num
  | None => In None (flatten a) \/ flatten a = []
  end.
(** [a'] is [a] less its mean, cell by cell *)
Definition lowered (a a' : arr onum) : Prop :=
  d0 a' = d0 a /\ d1 a' = d1 a /\ exists k, array_mean a k /\
  forall i j, at_ a' i j = match at_ a i j, k with Some v, Some m => Some (v - m)%num | _, _ => None end.
Definition same_cells (a a' : arr onum) : Prop := d0 a' = d0 a /\ d1 a' = d1 a /\ forall i j, at_ a' i j = at_ a i j.
(** a mode whose values are replaced, in relation [R] with the former ones *)
Definition sf_mode_as (R : arr onum -> arr onum -> Prop) (f f' : sfield) : Prop :=
  sg f' = sg f /\ msk f' = msk f /\ uv f' = uv f /\ R (values f) (values f').
Definition vf_mode_as (R : arr onum -> arr onum -> Prop) (f f' : vfield) : Prop :=
  vg f' = vg f /\ vmsk f' = vmsk f /\ vuv f' = vuv f /\ R (cx f) (cx f') /\ R (cy f) (cy f').
(** two bases that differ by the values of their modes only *)
Definition but_modes {F} (m m' : mfield F) : Prop :=
  mf_kind m' = mf_kind m /\ mf_mean m' = mf_mean m /\ mf_nmb m' = mf_nmb m /\ mf_evo m' = mf_evo m /\ mf_times m' = mf_times m /\ mf_ut m' = mf_ut m /\
  mf_g m' = mf_g m /\ mf_uv m' = mf_uv m /\ mf_eigvals m' = mf_eigvals m /\ mf_eigvects m' = mf_eigvects m /\ mf_ritz m' = mf_ritz m /\
  mf_norms m' = mf_norms m /\ mf_growth m' = mf_growth m /\ mf_puls m' = mf_puls m.
