(** * CloModel: the surroundings of a point (IMTreatment/vortex_detection/vortex_detection.py), the local marginal values of a profile
    (core/profile.py), the import of vector fields from text files (file_operation/file_operation.py) and the consistency of a vector field
    (core/vectorfield.py). *)
From Verif Require Import Num Res ListLib SortLib Arr FieldModel ScalarFieldModel VectorFieldModel ProfileModel Prof2Model.

(** ** VF.get_field_around_pt (vortex_detection.py:359-390).  The arrays of a VF are indexed by y, then by x (27-41); the axes and the
    arrays have matching lengths (numpy raises IndexError on a boolean filter of another length).  nmb_lc is an integer, not negative. *)
Record vfa := mkvfa { a_vx : list (list num); a_vy : list (list num); a_x : list num; a_y : list num; a_mask : list (list bool); a_theta : list (list num); a_time : num }.
(** np.ceil(nmb_lc/2.) (367) *)
Definition half_up (n : nat) : nat := Nat.div (n + 1) 2.
(** lines 365-375 for an axis: strict on both sides *)
Definition around_filt (axe : list num) (c : num) (n : nat) : list bool :=
  let delta := (nths axe 1 - nths axe 0)%num in
  let lo := (c - qn (half_up n) * delta)%num in
  let hi := (c + qn (half_up n) * delta)%num in
  map (fun v => (qltb lo v && qltb v hi)%bool) axe.
(** a[mask_y, :][:, mask_x] (377-386) *)
Definition crop2 {A} (my mx : list bool) (a : list (list A)) : list (list A) := map (keep mx) (keep my a).
Definition around_pt (f : vfa) (cx cy : num) (n : nat) : res vfa :=
  raise IndexErr when (Nat.ltb (length (a_x f)) 2 || Nat.ltb (length (a_y f)) 2)%bool ;;
  let mx := around_filt (a_x f) cx n in
  let my := around_filt (a_y f) cy n in
  let x := keep mx (a_x f) in
  let y := keep my (a_y f) in
  raise ValueErr when (Nat.eqb (length x) 0 || Nat.eqb (length y) 0)%bool ;;
  Ok (mkvfa (crop2 my mx (a_vx f)) (crop2 my mx (a_vy f)) x y (crop2 my mx (a_mask f)) (crop2 my mx (a_theta f)) (a_time f)).

(** ** Profile.remove_local_marginal_values (profile.py:1897-1926).  [smooth] is the gaussian smoothing of the profile over 'neighb'
    (1915).  Numpy compares with nan, and masks nothing, when no difference is known.  The mask is written in place (1923-1924), without
    the mask setter.  [beyond] as for remove_marginal_values. *)
Definition remove_local_marginal (smooth : profile -> res profile) (p : profile) (fact : num) : res profile :=
  let* s := smooth p in
  let* n := prof_neg s in
  let* d := prof_add p n in
  match map snd (valid_pts d) with
  | [] => Ok p
  | ys =>
    let mu := mean ys in let s2 := pvariance ys mu in
    let low := map (fun y => match y with Some v => beyond (mu - v)%num fact s2 | None => false end) (yv d) in
    let high := map (fun y => match y with Some v => beyond (v - mu)%num fact s2 | None => false end) (yv d) in
    let m1 := map (fun t => orb (fst t) (snd t)) (combine (pm p) low) in
    Ok (mkprof (px p) (py p) (map (fun t => orb (fst t) (snd t)) (combine m1 high)) (pux p) (puy p))
  end.

(** ** import_vfs_from_ascii (file_operation.py:1821-1898).  [lens] are the lengths of the names of the files that match, [times] the
    times given ([] by default).  The types of the arguments are those documented.  No class defines import_from_ascii (1893):
    python raises AttributeError.  The series is that of the numbers of the files read. *)
Inductive vfkind := KTVF | KSVF | KOther.
Fixpoint arange_from (a step : Z) (fuel : nat) (last : Z) : list Z :=
  match fuel with
  | 0 => []
  | S k => if (a <=? last)%Z then a :: arange_from (a + step) step k last else []
  end.
Definition import_from_ascii (i : Z) : res Z := Err AttrErr.
Fixpoint read_each (lens : list nat) (ref : nat) (is_ : list Z) : res (list Z) :=
  match is_ with
  | [] => Ok []
  | i :: r =>
    match nth_error lens (Z.to_nat i) with
    | None => Err IndexErr
    | Some l =>
      raise WarningExn when (negb (Nat.eqb l ref)) ;;
      let* f := import_from_ascii i in
      let* q := read_each lens ref r in
      Ok (f :: q)
    end
  end.
Definition import_vfs_ascii (lens : list nat) (kind : vfkind) (incr : Z) (interval : option (Z * Z)) (times : list num) : res (list Z) :=
  raise ValueErr when (incr <? 1)%Z ;;
  let n := Z.of_nat (length lens) in
  let '(a, b) := match interval with
                 | None => (0, n - 1)%Z
                 | Some (a, b) => if (b <? a)%Z then (b, a) else (a, b)
                 end in
  raise ValueErr when ((a <? 0)%Z || (n <? b)%Z)%bool ;;
  raise ValueErr when (negb (Nat.eqb (length times) 0) && negb (Nat.eqb (length lens) (length times)))%bool ;;
  match lens with
  | [] => Err IndexErr
  | ref :: _ =>
    raise ValueErr when (match kind with KOther => true | _ => false end) ;;
    read_each lens ref (arange_from a incr (Z.to_nat (b - a + 1)) b)
  end.

(** ** VectorField.check_consistency (vectorfield.py:575-602): the shapes, and no NaN at the cells that are not masked.  The types of the
    attributes (133-147 of field.py and 582-589) are those of the model. *)
Definition known_cells (m : arr bool) (v : arr onum) : bool :=
  forallb (fun p => (at_ m (fst p) (snd p) || negb (isnan (at_ v (fst p) (snd p))))%bool) (aidx (d0 v) (d1 v)).
Definition vf_check (f : vfield) : res unit :=
  raise GenericErr when (negb (shape_is (cx f) (vg f))) ;;
  raise GenericErr when (negb (shape_is (cy f) (vg f))) ;;
  raise GenericErr when (negb (shape_is (vmsk f) (vg f))) ;;
  raise GenericErr when (negb (known_cells (vmsk f) (cx f))) ;;
  raise GenericErr when (negb (known_cells (vmsk f) (cy f))) ;;
  Ok tt.
