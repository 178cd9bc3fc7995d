(** * VposModel: the position of vortices from a criterion (IMTreatment/vortex_detection/vortex_detection.py 2800-2907). *)
From Verif Require Import Num Res ListLib SortLib Arr FieldModel ScalarFieldModel VectorFieldModel ProfileModel PointsModel TemporalModel BlModel VpropModel Sf2Model CritModel.

Section Vpos.
(** [criterion] is the function given, with its arguments; [pick] is the choice of scipy between equal extrema, which is not used by the
    centres of mass; [asort] is numpy's argsort *)
Context (pick : list cell -> cell) (asort : list num -> list nat) (criterion : vfield -> res sfield).

(** the criterion without its masked borders (2886-2890): any exception becomes a TypeError *)
Definition crit_field (f : vfield) : res sfield :=
  match (let* s := criterion f in let* o := crop_masked_border s false in Ok (match o with None => s | Some g => g end)) with
  | Ok s => Ok s
  | Err _ => Err TypeErr
  end.
(** bornes_n and bornes_p (2897-2903) *)
Definition vort_bounds (vmax t : num) : (num * num) * (num * num) :=
  if qltb t vmax then ((- vmax, - t), (t, vmax))%num
  else ((- t * qq 11 10, - t), (t, t * qq 11 10))%num.
(** the points of get_zones_centers: without values, None when there is no zone *)
Definition as_points (s : sfield) (o : option (list (num * num))) : option points :=
  option_map (fun l => mkpts l [] (ux (sg s)) (uy (sg s)) no_unit) o.
(** ** _get_vortex_position_on_VF (2851-2907), for a number as threshold: the pair (vort, vort_c).  A NaN among the values that are not
    masked does not happen in fields built by the library. *)
Definition vort_on_vf (f : vfield) (threshold : num) (rel : bool) : res (option points * option points) :=
  raise ValueErr when (qltb threshold 0%num) ;;
  raise ValueErr when (rel && qltb 1%num threshold)%bool ;;
  let* s := crit_field f in
  let* vm := omax (shown_abs s) in
  match vm with
  | None => Err ValueErr
  | Some vmax =>
    let t := if rel then (threshold * vmax)%num else threshold in
    let b := vort_bounds vmax t in
    let* vort := fst (zones_centers pick s (fst b) false ZPonderated) in
    let* vort_c := fst (zones_centers pick s (snd b) false ZPonderated) in
    Ok (as_points s vort, as_points s vort_c)
  end.
(** the arguments of add_point (2832, 2844): the pair is received as (vort_c, vort) *)
Definition vort_args (r : option points * option points) (k : kind) : option points :=
  match k with Foc => snd r | FocC => fst r | _ => None end.
(** ** get_vortex_position (2800-2848) of a vector field, and of a temporal one *)
Definition vort_add (c : crit) (f : vfield) (threshold : num) (rel : bool) (time : num) : res crit :=
  let* r := vort_on_vf f threshold rel in
  match crit_add asort c (vort_args r) time with (c', None) => Ok c' | (_, Some e) => Err e end.
Definition vortex_position (f : vfield) (threshold : num) (rel : bool) : res crit := vort_add (crit_new no_unit) f threshold rel 0%num.
Fixpoint vort_loop (c : crit) (l : list (num * vfield)) (threshold : num) (rel : bool) : res crit :=
  match l with
  | [] => Ok c
  | (t, f) :: r => let* c' := vort_add c f threshold rel t in vort_loop c' r threshold rel
  end.
Definition vortex_positions (u : unit_t) (l : list (num * vfield)) (threshold : num) (rel : bool) : res crit := vort_loop (crit_new u) l threshold rel.
End Vpos.
