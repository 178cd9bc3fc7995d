(** * ClauModel: get_clauser_thickness (IMTreatment/boundary_layer/boundary_layer.py 857-903). *)
From Verif Require Import Num Res ListLib SortLib Arr FieldModel ScalarFieldModel VectorFieldModel ProfileModel BlModel.

Section Clau.
(** [root] is numpy's sqrt *)
Context (root : num -> num).
(** the quotient by a null friction velocity is nan or inf, the root of a negative number is nan: [None] *)
Definition u_star (tau rho : num) : onum :=
  if qeqb rho 0%num then None else if qltb (tau / rho)%num 0%num then None else Some (root (tau / rho)%num).
(** ** of a profile (882-892), with the wall shear stress given.  obj.y[-1] raises IndexError on an empty profile. *)
Definition clauser (p : profile) (tau rho : num) : res onum :=
  let* v_top := (match rev (yv p) with [] => Err IndexErr | v :: _ => Ok v end) in
  let* d := displ_thickness p in
  Ok (odiv (omul d v_top) (u_star tau rho)).
(** ** of a scalar field (893-903): the profiles of get_profile are taken for pairs; a Profile cannot be iterated *)
Definition clauser_field (ci : sfield -> nat -> nat -> num -> num -> onum) (f : sfield) (dir : darg) : res profile :=
  let axe := match dir with D1 => ax (sg f) | _ => ay (sg f) end in
  let* profs := mapM (fun x => match dir with D1 | D2 => Err TypeErr | DStr d => profile_linear ci f d x end) axe in
  let* vals := (match profs with [] => Ok [] | _ => Err TypeErr end) in
  prof_new axe vals None (ux (sg f)) (uy (sg f)).
End Clau.
