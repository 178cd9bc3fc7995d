(** * CohModel: the coherences of the modes of a decomposition, kept in the object (IMTreatment/pod/pod.py 619-755), and what becomes of them
    when the object changes. *)
From Verif Require Import Num Res ListLib SortLib Arr FieldModel ScalarFieldModel VectorFieldModel ProfileModel PointsModel TemporalModel GradModel PodModel.

(** a base with the attributes __temp_coh and __spat_coh (136-137) *)
Record cbase (F : Type) : Type := mkcb { cb : mfield F; cb_temp : option (list onum); cb_spat : option (list onum) }.
Arguments mkcb {F} _ _ _. Arguments cb {F} _. Arguments cb_temp {F} _. Arguments cb_spat {F} _.

(** the modes whose arrays have been changed in place: ScalarField.values (scalarfield.py 318-325) and VectorField.comp_x and comp_y
    (vectorfield.py 293-322) give the arrays of the field, not copies (the values getter first puts
    NaN in the masked cells, which [values] does at each reading) *)
Definition sf_put (f : sfield) (l : list (arr onum)) : sfield := match l with [v] => mksf (sg f) v (msk f) (uv f) | _ => f end.
Definition vf_put (f : vfield) (l : list (arr onum)) : vfield := match l with [x; y] => mkvf (vg f) x y (vmsk f) (vuv f) | _ => f end.
Definition set_modes {F} (mf : mfield F) (l : list F) : mfield F :=
  mkmf (mf_kind mf) (mf_mean mf) l (mf_nmb mf) (mf_evo mf) (mf_times mf) (mf_ut mf) (mf_g mf) (mf_uv mf) (mf_eigvals mf) (mf_eigvects mf) (mf_ritz mf)
       (mf_norms mf) (mf_growth mf) (mf_puls mf).
(** data -= np.mean(data) (714): NaN as soon as a value is *)
Definition centred (a : arr onum) : arr onum := amap (fun v => osub v (omean (flatten a))) a.

Section Coh.
(** [spec] is the deviation of the normalized spectrum of a centred array (715-718), [high] the greatest deviation for a shape (726-729),
    [tspec] the temporal coherence of the evolutions (649-666): parameters *)
Context {F : Type} (M : mops F) (put : F -> list (arr onum) -> F) (spec : arr onum -> onum) (high : nat -> nat -> num) (tspec : list num -> list profile -> list onum).
(** ** get_spatial_coherence (677-755), raw=True: the base after the call and the result; [low] is the mean deviation of the twenty random
    fields drawn (720-724) *)
Definition shape_of (mf : mfield F) : nat * nat := (length (ax (mf_g mf)), length (ay (mf_g mf))).
Definition mode_coh (low : num) (mf : mfield F) (f : F) : onum :=
  let sh := shape_of mf in
  odiv (osub (omean (map (fun a => spec (centred a)) (m_comps M f))) (Some low)) (Some (high (fst sh) (snd sh) - low)%num).
Definition spatial_coherence (low : num) (b : cbase F) : cbase F * list onum :=
  match cb_spat b with
  | Some v => (b, v)
  | None =>
    let v := map (mode_coh low (cb b)) (mf_modes (cb b)) in
    (mkcb (set_modes (cb b) (map (fun f => put f (map centred (m_comps M f))) (mf_modes (cb b)))) (cb_temp b) (Some v), v)
  end.
(** ** get_temporal_coherence (619-675), raw=True *)
Definition temporal_coherence (b : cbase F) : cbase F * list onum :=
  match cb_temp b with
  | Some v => (b, v)
  | None => let v := tspec (mf_times (cb b)) (mf_evo (cb b)) in (mkcb (cb b) (Some v) (cb_spat b), v)
  end.
(** ** crop (247-312): only __temp_coh is forgotten (295), when a time interval is given; crop_modal_base (154-245) forgets both (241-242) *)
Definition cb_crop (b : cbase F) (ivx ivy ivt : option (num * num)) : res (cbase F) :=
  let* m := mf_crop M (cb b) ivx ivy ivt in
  Ok (mkcb m (match ivt with None => cb_temp b | Some _ => None end) (cb_spat b)).
Definition cb_crop_base (b : cbase F) (keep remove : option msel) : res (cbase F) :=
  let* m := crop_base (cb b) keep remove in Ok (mkcb m None None).
End Coh.
(** ** Calls on a base that has just been built: both coherences unset (136-137) *)
Inductive ccall := CSpat (low : num) | CTemp | CCrop (ivx ivy ivt : option (num * num)) | CBase (keep remove : option msel).
Definition cb_new {F} (m : mfield F) : cbase F := mkcb m None None.
Section Calls.
Context {F : Type} (M : mops F) (put : F -> list (arr onum) -> F) (spec : arr onum -> onum) (high : nat -> nat -> num) (tspec : list num -> list profile -> list onum).
Definition cb_call (b : cbase F) (c : ccall) : res (cbase F) :=
  match c with
  | CSpat low => Ok (fst (spatial_coherence M put spec high low b))
  | CTemp => Ok (fst (temporal_coherence tspec b))
  | CCrop ivx ivy ivt => cb_crop M b ivx ivy ivt
  | CBase keep remove => cb_crop_base b keep remove
  end.
Fixpoint cb_calls (b : cbase F) (cs : list ccall) : res (cbase F) :=
  match cs with [] => Ok b | c :: r => let* b' := cb_call b c in cb_calls b' r end.
End Calls.
