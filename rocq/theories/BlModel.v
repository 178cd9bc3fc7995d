(** * BlModel: profiles taken from scalar fields (core/scalarfield.py) and boundary layer thicknesses (boundary_layer/boundary_layer.py) *)
From Verif Require Import Num Res ListLib SortLib Arr FieldModel ScalarFieldModel ProfileModel.

(** ** ScalarField.get_profile (scalarfield.py 794-939) *)
(** direction: the axis along which the position is chosen, 'x' or 'y' *)
Inductive pdir := DX | DY.
Definition pos_axis (f : sfield) (d : pdir) : list num := match d with DX => ax (sg f) | DY => ay (sg f) end.
Definition run_axis (f : sfield) (d : pdir) : list num := match d with DX => ay (sg f) | DY => ax (sg f) end.
Definition run_unit (f : sfield) (d : pdir) : unit_t := match d with DX => uy (sg f) | DY => ux (sg f) end.
(** values and mask of the [k]-th line: self.values[k, :] or self.values[:, k] *)
Definition line_values (f : sfield) (d : pdir) (k : nat) : list onum :=
  match d with
  | DX => map (fun j => at_ (values f) k j) (seq 0 (d1 (raw f)))
  | DY => map (fun i => at_ (values f) i k) (seq 0 (d0 (raw f)))
  end.
Definition line_mask (f : sfield) (d : pdir) (k : nat) : list bool :=
  match d with
  | DX => map (fun j => at_ (msk f) k j) (seq 0 (d1 (msk f)))
  | DY => map (fun i => at_ (msk f) i k) (seq 0 (d0 (msk f)))
  end.
Definition line_profile (f : sfield) (d : pdir) (k : nat) : res profile :=
  prof_new (run_axis f d) (line_values f d k) (Some (line_mask f d k)) (run_unit f d) (uv f).
(** a number, ind=False: it has to be on the axis (856-860); axe.max() of an empty axis raises ValueError *)
Definition off_axis (l : list num) (v : num) : bool :=
  match l with [] => true | _ => (qltb (lmax l) v || qltb v (lmin l))%bool end.
(** an index (861-865) *)
Definition off_index (l : list num) (i : Z) : bool := ((i <? 0) || (Z.of_nat (length l) - 1 <? i))%Z%bool.
(** interp='linear' (872-891): get_value at each point of the other axis; the position given by index is first looked up *)
Definition profile_values (ci : sfield -> nat -> nat -> num -> num -> onum) (f : sfield) (d : pdir) (v : num) : res profile :=
  let* vals := mapM (fun w => match d with DX => get_value ci f v w | DY => get_value ci f w v end) (run_axis f d) in
  prof_new (run_axis f d) vals None (run_unit f d) (uv f).
Definition profile_linear ci (f : sfield) (d : pdir) (v : num) : res profile :=
  raise ValueErr when (off_axis (pos_axis f d) v) ;; profile_values ci f d v.
Definition profile_linear_ind ci (f : sfield) (d : pdir) (i : Z) : res profile :=
  raise ValueErr when (off_index (pos_axis f d) i) ;; profile_values ci f d (nths (pos_axis f d) (Z.to_nat i)).
(** interp='nearest' (893-909): the first pair of neighbours around the position; [i] is unbound when the axis has one value *)
Definition brackets (l : list num) (v : num) (i : nat) : bool :=
  ((qleb v (nths l i) && qleb (nths l (i - 1)) v) || (qleb (nths l i) v && qleb v (nths l (i - 1))))%bool.
Definition nearest_index (l : list num) (v : num) : res nat :=
  raise UnboundErr when (Nat.ltb (length l) 2) ;;
  let i := match filter (brackets l v) (seq 1 (length l - 1)) with k :: _ => k | [] => length l - 1 end in
  Ok (if qltb (qabs (v - nths l (i - 1)%nat)) (qabs (v - nths l i)) then i - 1 else i).
Definition profile_nearest (f : sfield) (d : pdir) (v : num) : res profile :=
  raise ValueErr when (off_axis (pos_axis f d) v) ;;
  let* k := nearest_index (pos_axis f d) v in line_profile f d k.
Definition profile_ind (f : sfield) (d : pdir) (i : Z) : res profile :=
  raise ValueErr when (off_index (pos_axis f d) i) ;; line_profile f d (Z.to_nat i).
(** an interval, ind=False (919-928).  The loop 845-849 changes nothing.  The means of the masks become booleans: true when one is,
    or when there is no line at all (the mean is then NaN) *)
Definition interval_lines (l : list num) (a b : num) : list nat :=
  filter (fun k => (qleb a (nths l k) && qleb (nths l k) b)%bool) (seq 0 (length l)).
Definition profile_interval (f : sfield) (d : pdir) (a b : num) : res profile :=
  raise ValueErr when (match pos_axis f d with [] => true | _ => false end) ;;
  let ks := interval_lines (pos_axis f d) a b in
  let js := seq 0 (length (run_axis f d)) in
  let vals := map (fun j => omean (map (fun k => nth j (line_values f d k) None) ks)) js in
  let mask := map (fun j => match ks with [] => true | _ => existsb (fun k => nth j (line_mask f d k) false) ks end) js in
  prof_new (run_axis f d) vals (Some mask) (run_unit f d) (uv f).
(** 'all' (866-867) *)
Definition profile_all (f : sfield) (d : pdir) : res profile :=
  match pos_axis f d with [] => Err ValueErr | x :: _ => profile_interval f d x (last (pos_axis f d) (qz 0)) end.
(** an interval of indices (850-854, 929-938): the interval was converted to floats (830), which cannot slice *)
Definition profile_interval_ind (f : sfield) (d : pdir) (a b : Z) : res profile :=
  let n := Z.of_nat (length (pos_axis f d)) in
  raise ValueErr when ((Z.min a b <? - n + 1) || (n - 1 <? Z.max a b))%Z%bool ;; Err TypeErr.

(** ** Profile.max (profile.py 361-377): None when everything is masked; NaN when an unmasked value is *)
Definition prof_max (p : profile) : option onum :=
  if forallb (fun b => b) (pm p) then None
  else let l := keep (map negb (pm p)) (yv p) in
       Some (if existsb isnan l then None else Some (lmax (map (fun y => match y with Some v => v | None => 0%num end) l))).

(** ** get_bl_thickness of a profile (boundary_layer.py 838-843); comparisons with NaN are false, so that no crossing is found *)
Definition bl_thickness (p : profile) (perc : num) : res onum :=
  match prof_max p with
  | None => Ok (Some 0%num)
  | Some None => Err IndexErr
  | Some (Some m) => match interp_y p (m * perc)%num with [] => Err IndexErr | d :: _ => Ok d end
  end.
(** ** get_displ_thickness (918-940) and get_momentum_thickness (979-1001) of a profile.
    Profile.y is never a masked array, so that lines 923-926 and 985-988 do nothing.  numpy.max of values with a NaN is NaN, and a null
    maximum makes the quotients nan or inf: [None]. *)
Definition wall_points (q : profile) : list (num * onum) :=
  match px q with
  | [] => []
  | x0 :: _ => if qeqb x0 0%num then combine (px q) (yv q) else (0%num, Some 0%num) :: combine (px q) (yv q)
  end.
Definition all_known (l : list (num * onum)) : option (list (num * num)) :=
  if existsb (fun t => isnan (snd t)) l then None else Some (map (fun t => (fst t, match snd t with Some v => v | None => 0%num end)) l).
Definition defect (u : num) : num := (1 - u)%num.
Definition momentum (u : num) : num := (u * (1 - u))%num.
Definition integral_thickness (fonct : num -> num) (p : profile) : res onum :=
  let* d := bl_thickness p (qq 19 20) in
  match d with
  | None => Err ValueErr
  | Some d =>
    if qeqb d 0%num then Ok (Some 0%num)
    else
      let* q := prof_crop p (Some (0%num, d)) None in
      match wall_points q with
      | [] => Ok (Some 0%num)
      | l => match all_known l with
             | None => Ok None
             | Some pts => let m := lmax (map snd pts) in
                           if qeqb m 0%num then Ok None else Ok (Some (trapz (map (fun t => (fst t, fonct (snd t / m)%num)) pts)))
             end
      end
  end.
Definition displ_thickness : profile -> res onum := integral_thickness defect.
Definition momentum_thickness : profile -> res onum := integral_thickness momentum.
(** ** get_shape_factor (1020-1042) of a profile: a null momentum thickness gives nan or inf *)
Definition shape_factor (p : profile) : res onum :=
  let* a := displ_thickness p in let* b := momentum_thickness p in Ok (odiv a b).

(** ** The same on a scalar field (844-851, 941-948, 1002-1009): [direction] is an integer according to the documentation,
    get_profile only takes 'x' or 'y' *)
Inductive darg := D1 | D2 | DStr (d : pdir).
Definition sweep (ci : sfield -> nat -> nat -> num -> num -> onum) (thick : profile -> res onum) (f : sfield) (dir : darg) : res profile :=
  let axe := match dir with D1 => ax (sg f) | _ => ay (sg f) end in
  let* profs := mapM (fun x => match dir with D1 | D2 => Err TypeErr | DStr d => profile_linear ci f d x end) axe in
  let* vals := mapM thick profs in
  prof_new axe vals None (ux (sg f)) (uy (sg f)).
