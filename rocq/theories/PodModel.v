(** * PodModel: modal decompositions (IMTreatment/pod/pod.py).
    Values are real: np.real is the identity.  The complex modes and coefficients of a 'dmd' are only modelled as far as
    crop_modal_base handles them (it moves profiles and modes around without looking inside). *)
From Verif Require Import Num Res ListLib SortLib Arr FieldModel ScalarFieldModel VectorFieldModel ProfileModel PointsModel TemporalModel GradModel.

(** ** What a modal base reads and builds for scalar and vector fields: the arrays of the components, the mask, the unit of
    the values, import_from_arrays, the energy density *)
Record mops (F : Type) : Type := mkmops {
  m_ops : fops F;
  m_comps : F -> list (arr onum);                        (* values, or [comp_x; comp_y] *)
  m_unit : F -> unit_t;
  m_import : grid -> list (arr onum) -> arr bool -> unit_t -> res F;
  m_fill : interps -> interps -> interps -> F -> res F;  (* fill(kind='linear', inplace=True) *)
  m_scale : F -> sarg -> sarg -> sarg -> F }.
Arguments m_ops {F} _. Arguments m_comps {F} _ _. Arguments m_unit {F} _ _. Arguments m_import {F} _ _ _ _ _.
Arguments m_fill {F} _ _ _ _ _. Arguments m_scale {F} _ _ _ _ _.
(** ScalarField.fill (scalarfield.py 1789-1871), inplace=True: the values setter, then mask = False *)
Definition sf_fill_in (nearest linear cubic : interps) (f : sfield) : res sfield :=
  let v := values f in
  let v' := if negb (any_masked f) then v
            else mkarr (d0 v) (d1 v) (fun i j =>
                   match (if at_ (msk f) i j then linear f i j else at_ v i j) with None => nearest f i j | Some q => Some q end) in
  let* f1 := set_values f v' in set_mask_bool f1 false.
(** VectorField.fill (vectorfield.py 910-959), inplace=True *)
Definition vf_fill_in (nearest linear cubic : interps) (f : vfield) : res vfield :=
  let* x := comp_x_sf f in
  let* y := comp_y_sf f in
  let* x' := sf_fill nearest linear cubic x FLinear 0%num in
  let* y' := sf_fill nearest linear cubic y FLinear 0%num in
  let* f1 := vf_set_comp_x f (values x') in
  let* f2 := vf_set_comp_y f1 (values y') in
  Ok (mkvf (vg f2) (cx f2) (cy f2) (afull (length (ax (vg f))) (length (ay (vg f))) false) (vuv f2)).
Definition sf_mops : mops sfield :=
  mkmops sfield sf_ops (fun f => [values f]) uv
         (fun g l m u => match l with [v] => sf_import (ax g) (ay g) v (Some m) (ux g) (uy g) u | _ => Err TypeErr end)
         sf_fill_in sf_scale.
Definition vf_mops : mops vfield :=
  mkmops vfield vf_ops (fun f => [cx f; cy f]) vuv
         (fun g l m u => match l with [x; y] => vf_import (ax g) (ay g) x y m (ux g) (uy g) u | _ => Err TypeErr end)
         vf_fill_in vf_scale.

(** ** The base (45-137).  Attributes that are not set are [None]; the coherences are not modelled. *)
Inductive dkind := Pod | Bpod | Dmd.
Record mfield (F : Type) : Type := mkmf {
  mf_kind : dkind; mf_mean : F; mf_modes : list F; mf_nmb : list Z; mf_evo : list profile;
  mf_times : list num; mf_ut : unit_t; mf_g : grid; mf_uv : unit_t;
  mf_eigvals : option profile; mf_eigvects : option (list (list num));
  mf_ritz : option profile; mf_norms : option profile; mf_growth : option profile; mf_puls : option profile }.
Arguments mkmf {F} _ _ _ _ _ _ _ _ _ _ _ _ _ _ _.
Arguments mf_kind {F} _. Arguments mf_mean {F} _. Arguments mf_modes {F} _. Arguments mf_nmb {F} _. Arguments mf_evo {F} _.
Arguments mf_times {F} _. Arguments mf_ut {F} _. Arguments mf_g {F} _. Arguments mf_uv {F} _. Arguments mf_eigvals {F} _.
Arguments mf_eigvects {F} _. Arguments mf_ritz {F} _. Arguments mf_norms {F} _. Arguments mf_growth {F} _. Arguments mf_puls {F} _.

(** indexing of a list or an array by an integer, counted from the end when negative *)
Definition py_get {A} (l : list A) (i : Z) : res A :=
  let k := if (i <? 0)%Z then (i + Z.of_nat (length l))%Z else i in
  if ((0 <=? k) && (k <? Z.of_nat (length l)))%Z%bool
  then match nth_error l (Z.to_nat k) with Some a => Ok a | None => Err IndexErr end
  else Err IndexErr.

(** the constructor: checks of 56-112 on the lengths, axes and unit of the mean field, times of the first evolution *)
Definition len_is {A} (o : option (list A)) (n : nat) : bool := match o with None => true | Some l => Nat.eqb (length l) n end.
Definition mf_new {F} (M : mops F) (kind : dkind) (mean : F) (modes : list F) (nmb : list Z) (evo : list profile)
  (eigvals : option profile) (eigvects : option (list (list num))) (ritz norms growth puls : option profile) : res (mfield F) :=
  match modes, evo with
  | _ :: _, p0 :: _ =>
    let n := length modes in
    raise ValueErr when (negb (Nat.eqb (length nmb) n)) ;;
    raise ValueErr when (negb (Nat.eqb (length evo) n)) ;;
    raise ValueErr when (negb (len_is (option_map px eigvals) n)) ;;
    raise ValueErr when (match eigvects with
                         | None => false
                         | Some m => negb (Nat.eqb (length m) (length (px p0)) && forallb (fun r => Nat.eqb (length r) n) m)
                         end) ;;
    raise ValueErr when (negb (len_is (option_map px ritz) n && len_is (option_map px norms) n
                               && len_is (option_map px growth) n && len_is (option_map px puls) n)) ;;
    Ok (mkmf kind mean modes nmb evo (px p0) (pux p0) (o_grid (m_ops M) mean) (m_unit M mean)
             eigvals eigvects ritz norms growth puls)
  | _, _ => Err IndexErr
  end.

(** ** crop_modal_base (154-245).  [SelBad]: neither an integer nor an array *)
Inductive msel := SelInt (n : Z) | SelArr (l : list Z) | SelBad.
Definition arange0 (n : Z) : list Z := map Z.of_nat (seq 0 (Z.to_nat n)).
(** 173-190: every branch that uses modes_to_remove calls np.arrange, which does not exist *)
Definition kept (keep remove : option msel) : res (list Z) :=
  match keep, remove with
  | None, None => Err ValueErr
  | Some (SelInt n), _ => Ok (arange0 n)
  | Some (SelArr l), _ => Ok l
  | Some SelBad, _ => Err TypeErr
  | None, Some SelBad => Err TypeErr
  | None, Some _ => Err AttrErr
  end.
(** 198-235: a new profile that receives the wanted points one by one (add_point) *)
Fixpoint crop_points (p new : profile) (keep : list Z) : res profile :=
  match keep with
  | [] => Ok new
  | i :: r => let* x := py_get (px p) i in
              raise IndexErr when (negb (aligned p)) ;;
              let* y := py_get (yv p) i in
              let* new' := out_res (add_point new x y) in
              crop_points p new' r
  end.
Definition crop_prof (p : profile) (u w : unit_t) (keep : list Z) : res profile := crop_points p (mkprof [] [] [] u w) keep.
Definition attr {A} (o : option A) : res A := match o with Some a => Ok a | None => Err AttrErr end.
Definition crop_base {F} (mf : mfield F) (keep remove : option msel) : res (mfield F) :=
  let* ks := kept keep remove in
  match mf_kind mf with
  | Bpod => Err GenericErr
  | Pod =>
    let* ev := attr (mf_eigvals mf) in
    let* vects := (match ks with [] => Ok [] | _ => attr (mf_eigvects mf) end) in
    let* modes := mapM (py_get (mf_modes mf)) ks in
    let* evo := mapM (py_get (mf_evo mf)) ks in
    let* ev' := crop_prof ev (pux ev) (puy ev) ks in
    (* 221-224: rows and columns of the eigenvectors are both selected by the modes *)
    let* vects' := mapM (fun i => let* row := py_get vects i in mapM (py_get row) ks) ks in
    let* nmb := mapM (py_get (mf_nmb mf)) ks in
    Ok (mkmf Pod (mf_mean mf) modes nmb evo (mf_times mf) (mf_ut mf) (mf_g mf) (mf_uv mf)
             (Some ev') (Some vects') (mf_ritz mf) (mf_norms mf) (mf_growth mf) (mf_puls mf))
  | Dmd =>
    (* 203-210: the units come from self.eigvals, which a 'dmd' does not set *)
    let* ev := attr (mf_eigvals mf) in
    let* modes := mapM (py_get (mf_modes mf)) ks in
    let* evo := mapM (py_get (mf_evo mf)) ks in
    let sub o := (match ks with
                  | [] => Ok (mkprof [] [] [] (pux ev) (puy ev))
                  | _ => let* p := attr o in crop_prof p (pux ev) (puy ev) ks
                  end) in
    let* gr := sub (mf_growth mf) in
    let* no := sub (mf_norms mf) in
    let* pu := sub (mf_puls mf) in
    let* ri := sub (mf_ritz mf) in
    let* nmb := mapM (py_get (mf_nmb mf)) ks in
    Ok (mkmf Dmd (mf_mean mf) modes nmb evo (mf_times mf) (mf_ut mf) (mf_g mf) (mf_uv mf)
             (mf_eigvals mf) (mf_eigvects mf) (Some ri) (Some no) (Some gr) (Some pu))
  end.

(** ** reconstruct (446-560) for 'pod' and 'bpod'.  For 'dmd' (complex values) it is not modelled: [OutOfFuel].
    [WInt] is an integer; other strings than 'all' are not modelled. *)
Inductive wsel := WAll | WInt (n : Z) | WArr (l : list Z).
Definition zmax (l : list Z) : Z := fold_right Z.max (hd 0%Z l) l.
Definition wanted {F} (mf : mfield F) (w : wsel) : res (list Z) :=
  match w with
  | WAll => Ok (arange0 (Z.of_nat (length (mf_modes mf))))
  | WInt n => Ok (arange0 n)
  | WArr [] => Err IndexErr
  | WArr l => raise ValueErr when (Z.of_nat (length (mf_modes mf)) <? zmax l)%Z ;; Ok l
  end.
(** 521, 545: get_interpolated_values(x=t)[0] *)
Definition coef_at (p : profile) (t : num) : res onum :=
  raise IndexErr when (negb (aligned p)) ;;
  match interp_x p t with [] => Err IndexErr | c :: _ => Ok c end.
Definition same_dims (a b : arr onum) : bool := (Nat.eqb (d0 a) (d0 b) && Nat.eqb (d1 a) (d1 b))%bool.
(** one mode: its arrays and its coefficient at each time *)
Definition mode_term {F} (M : mops F) (mf : mfield F) (times : list num) (n : Z) : res (list (arr onum) * list onum) :=
  let* mode := py_get (mf_modes mf) n in
  let* evo := py_get (mf_evo mf) n in
  let* cs := mapM (coef_at evo) times in
  (* shapes that differ raise ValueError (broadcasting of one row or one column is not modelled) *)
  raise ValueErr when (negb (forallb (fun p => same_dims (fst p) (snd p)) (combine (m_comps M (mf_mean mf)) (m_comps M mode)))) ;;
  Ok (m_comps M mode, cs).
(** 522, 546-547: tmp_tf[t] += mode*coef *)
Definition add_mode (acc : list (arr onum)) (mode : list (arr onum)) (c : onum) : list (arr onum) :=
  map (fun p => amap2 (fun a v => oadd a (omul v c)) (fst p) (snd p)) (combine acc mode).
Definition at_time {F} (M : mops F) (mf : mfield F) (terms : list (list (arr onum) * list onum)) (k : nat) : list (arr onum) :=
  fold_left (fun acc tm => add_mode acc (fst tm) (nth k (snd tm) None)) terms (m_comps M (mf_mean mf)).
Definition reconstruct {F} (M : mops F) (asort : list num -> list nat) (mf : mfield F) (w : wsel) (times : option (list num))
  : res (tfield F) :=
  let* ws := wanted mf w in
  let ts := match times with None => mf_times mf | Some l => l end in
  match mf_kind mf with
  | Dmd => Err OutOfFuel
  | _ =>
    (* 487-490: max and min of an empty array raise ValueError *)
    raise ValueErr when (match ts, mf_times mf with [], _ => true | _, [] => true | _, _ => false end) ;;
    raise ValueErr when (qltb (lmax (mf_times mf)) (lmax ts) || qltb (lmin ts) (lmin (mf_times mf)))%bool ;;
    let* m0 := py_get (mf_modes mf) 0 in
    let super_mask := o_mask (m_ops M) m0 in
    let* terms := mapM (mode_term M mf ts) ws in
    let* fs := mapM (fun k => let* f := m_import M (mf_g mf) (at_time M mf terms k) super_mask (mf_uv mf) in
                              Ok (f, nths ts k, mf_ut mf)) (seq 0 (length ts)) in
    out_res (add_all (m_ops M) asort tf_new fs)
  end.

(** ** get_modes_energy (562-605), raw=True.  The mean of an array with a NaN is NaN. *)
Definition mode_magnitude {F} (M : mops F) (f : F) : list onum :=
  match m_comps M f with
  | [] => []
  | c :: r => map (oscale (qq 1 2)) (fold_left (fun acc a => map (fun p => oadd (fst p) (osq (snd p))) (combine acc (flatten a))) r (map osq (flatten c)))
  end.
Definition mode_energy {F} (M : mops F) (f : F) (p : profile) : onum := omul (omean (mode_magnitude M f)) (omean (map osq (yv p))).
Fixpoint ocumsum (acc : onum) (l : list onum) : list onum :=
  match l with [] => [] | a :: r => let s := oadd acc a in s :: ocumsum s r end.
Definition modes_energy {F} (M : mops F) (mf : mfield F) (cum : bool) : res (list onum) :=
  let* nrj := mapM (fun n => let* m := py_get (mf_modes mf) n in
                             let* p := py_get (mf_evo mf) n in
                             raise IndexErr when (negb (aligned p)) ;;
                             Ok (mode_energy M m p)) (arange0 (Z.of_nat (length (mf_modes mf)))) in
  Ok (if cum then ocumsum (Some 0%num) nrj else nrj).

(** ** crop (247-312), time interval in the unit of the times (ind=False) and in indices *)
Definition first_after (times : list num) (v : num) : nat :=
  match find (fun i => qltb v (nths times i)) (seq 0 (length times)) with Some i => i | None => length times end.
Definition crop_time_inds (times : list num) (a b : num) : res (nat * nat) :=
  raise IndexErr when (match times with [] => true | _ => false end) ;;
  let t0 := nths times 0 in let tn := last times (qz 0) in
  let* i1 := (if qleb a t0 then Ok 0 else if qleb tn a then Err ValueErr else Ok (first_after times a)) in
  let* i2 := (if qleb tn b then Ok (length times) else if qleb b t0 then Err ValueErr else Ok (first_after times b)) in
  Ok (i1, i2).
(** inplace=False: a failure leaves the original alone *)
Definition mf_crop_time {F} (mf : mfield F) (a b : num) : res (mfield F) :=
  let* (i1, i2) := crop_time_inds (mf_times mf) a b in
  let* evo := mapM (fun p => out_res (crop_in_with p (crop_data_ind p (Z.of_nat i1) (Z.of_nat i2)))) (mf_evo mf) in
  Ok (mkmf (mf_kind mf) (mf_mean mf) (mf_modes mf) (mf_nmb mf) evo (slice i1 i2 (mf_times mf)) (mf_ut mf) (mf_g mf) (mf_uv mf)
           (mf_eigvals mf) (mf_eigvects mf) (mf_ritz mf) (mf_norms mf) (mf_growth mf) (mf_puls mf)).
Definition mf_crop_space {F} (M : mops F) (mf : mfield F) (ivx ivy : option (num * num)) : res (mfield F) :=
  let* (w, g) := grid_crop (mf_g mf) ivx ivy in
  let* mean := o_crop (m_ops M) (mf_mean mf) ivx ivy in
  let* modes := mapM (fun f => o_crop (m_ops M) f ivx ivy) (mf_modes mf) in
  Ok (mkmf (mf_kind mf) mean modes (mf_nmb mf) (mf_evo mf) (mf_times mf) (mf_ut mf) g (mf_uv mf)
           (mf_eigvals mf) (mf_eigvects mf) (mf_ritz mf) (mf_norms mf) (mf_growth mf) (mf_puls mf)).
Definition mf_crop {F} (M : mops F) (mf : mfield F) (ivx ivy ivt : option (num * num)) : res (mfield F) :=
  let* m1 := (match ivt with None => Ok mf | Some (a, b) => mf_crop_time mf a b end) in
  match ivx, ivy with None, None => Ok m1 | _, _ => mf_crop_space M m1 ivx ivy end.
(** ** scale (314-345): the mean field and the temporal evolutions receive scalev, the modes do not *)
Definition mf_scale {F} (M : mops F) (mf : mfield F) (sx sy st sv : sarg) : res (mfield F) :=
  let mean := m_scale M (mf_mean mf) sx sy sv in
  let* evo := mapM (fun p => out_res (scale_in p st sv)) (mf_evo mf) in
  match evo with
  | [] => Err IndexErr
  | p0 :: _ =>
    Ok (mkmf (mf_kind mf) mean (map (fun f => m_scale M f sx sy SNone) (mf_modes mf)) (mf_nmb mf) evo (px p0) (pux p0)
             (o_grid (m_ops M) mean) (m_unit M mean)
             (mf_eigvals mf) (mf_eigvects mf) (mf_ritz mf) (mf_norms mf) (mf_growth mf) (mf_puls mf))
  end.

(** ** TemporalFields.crop_masked_border (temporalfields.py 1289-1370), hard=False, inplace=True: the state reached *)
Definition cum_row_ok (m : arr bool) (i : nat) : bool := existsb (fun j => negb (at_ m i j)) (seq 0 (d1 m)).
Definition cum_col_ok (m : arr bool) (j : nat) : bool := existsb (fun i => negb (at_ m i j)) (seq 0 (d0 m)).
Definition tf_crop_border {F} (ops : fops F) (t : tfield F) : res (tfield F) :=
  let m := tf_mask_cum ops t in
  if negb (existsb (fun b => b) (flatten m)) then Ok t
  else match first_ok (cum_row_ok m) (d0 m), last_ok (cum_row_ok m) (d0 m), first_ok (cum_col_ok m) (d1 m), last_ok (cum_col_ok m) (d1 m) with
       | Some x0, Some x1, Some y0, Some y1 => tf_crop_ind ops t (zpair x0 x1) (zpair y0 y1) None
       | _, _, _, _ => Ok t
       end.
(** fill(tof='spatial', kind='linear', inplace=True) (temporalscalarfields.py 402-412, temporalvectorfields.py 360-370) *)
Definition tf_fill_in {F} (M : mops F) (nearest linear cubic : interps) (t : tfield F) : res (tfield F) :=
  let* fs := mapM (m_fill M nearest linear cubic) (tff t) in Ok (mktf (tfg t) fs (tfa t) (tft t) (tfu t)).

(** ** modal_decomposition (985-1180), kind='pod'.
    The library modred is a parameter: from the snapshots (the arrays of each fluctuation) it computes the eigenvalues, the
    matrix of the eigenvectors (rows: snapshots) and the modes.  [root] is the power .5. *)
Record solved : Type := mksol { s_vals : list num; s_vects : list (list num); s_mode : nat -> list (arr onum) }.
Definition solver := list (list (arr onum)) -> solved.
Definition dwanted {F} (t : tfield F) (w : wsel) : res (list Z) :=
  match w with
  | WAll => Ok (arange0 (Z.of_nat (length (tff t))))
  | WInt n => Ok (arange0 n)
  | WArr [] => Err ValueErr
  | WArr l => raise ValueErr when (existsb (fun i => i <? 0)%Z l || (Z.of_nat (length (tff t)) <? zmax l)%Z)%bool ;; Ok l
  end.
Definition modal_pod {F} (M : mops F) (asort : list num -> list nat) (nearest linear cubic : interps) (solve : solver) (root : num -> num)
  (t : tfield F) (w : wsel) : res (mfield F) :=
  let* ws0 := dwanted t w in
  (* _tsf_to_POD, _tvf_to_POD (896-948) *)
  let* t1 := tf_crop_border (m_ops M) t in
  let* t2 := tf_fill_in M nearest linear cubic t1 in
  let* mean := tf_mean (m_ops M) t2 1 in
  let* fl := tf_fluct (m_ops M) asort t2 1 in
  let super_mask := tf_mask_cum (m_ops M) fl in
  let* f0 := py_get (tff fl) 0 in
  let sol := solve (map (m_comps M) (tff fl)) in
  (* 1082-1088; the wanted modes are not negative *)
  let ws := filter (fun i => (i <? Z.of_nat (length (s_vals sol)))%Z) ws0 in
  let* vects := mapM (fun row => mapM (py_get row) ws) (s_vects sol) in
  let* vals := mapM (py_get (s_vals sol)) ws in
  let* eigvals := prof_new (map qz ws) (map Some vals) None (tfu fl) one_unit in
  let modes := map (fun i => s_mode sol (Z.to_nat i)) ws in
  (* 1132-1138: column n of the selected eigenvectors and the n-th value of the profile of eigenvalues *)
  let* evo := mapM (fun n => let* col := mapM (fun row => py_get row (Z.of_nat n)) vects in
                             let* ev := py_get (yv eigvals) (Z.of_nat n) in
                             prof_new (tft fl) (map (fun v => option_map (fun e => v * root e)%num ev) col) None (tfu fl) (m_unit M f0))
                   (seq 0 (length ws)) in
  let* fmodes := mapM (fun cs => m_import M (tfg fl) cs super_mask (m_unit M f0)) modes in
  mf_new M Pod mean fmodes ws evo (Some eigvals) (Some vects) None None None None.
