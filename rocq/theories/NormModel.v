(** * NormModel: the norms of scalar and vector fields (IMTreatment/core/scalarfield.py 1120-1128, vectorfield.py 686-695), in Coq's reals.
    Simplified: the order of the norm is a natural number. *)
From Coq Require Import Reals.
From Verif Require Import Num Res ListLib Arr FieldModel ScalarFieldModel VectorFieldModel VpropModel CriterionModel.

(** array[~mask] (1124): in the order of the array *)
Definition unmasked (a : arr onum) (m : arr bool) : list onum :=
  flat_map (fun c => if at_ m (fst c) (snd c) then [] else [at_cell a c]) (all_cells (d0 a) (d1 a)).
(** a value NaN gives a norm NaN *)
Fixpoint all_some (l : list onum) : option (list R) :=
  match l with
  | [] => Some []
  | Some v :: t => match all_some t with Some r => Some (toR v :: r) | None => None end
  | None :: _ => None
  end.
Definition power_sum (p : nat) (l : list R) : R := fold_right Rplus 0%R (map (fun v => (Rabs v ^ p)%R) l).
(** s ** (1 / p), which is 0 in 0 *)
Definition root (p : nat) (s : R) : R := if Rle_dec s 0 then 0%R else Rpower s (/ INR p).
(** the result None is NaN: 0 / 0 when there is no point.  norm=0 raises ZeroDivisionError *)
Definition norm_of (p : nat) (perpoint : bool) (l : list onum) (points : nat) : res (option R) :=
  raise GenericErr when (Nat.eqb p 0) ;;
  Ok (match all_some l with
      | None => None
      | Some v => if perpoint then (if Nat.eqb points 0 then None else Some (root p (power_sum p v) / INR points)%R) else Some (root p (power_sum p v))
      end).
Definition sf_norm (p : nat) (perpoint : bool) (f : sfield) : res (option R) :=
  let l := unmasked (values f) (msk f) in norm_of p perpoint l (length l).
Definition vf_norm (p : nat) (perpoint : bool) (f : vfield) : res (option R) :=
  let l := unmasked (cx f) (vmsk f) in norm_of p perpoint (l ++ unmasked (cy f) (vmsk f)) (length l).
