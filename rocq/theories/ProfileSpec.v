(** * ProfileSpec: what a profile is for its user: the list of its samples (x, y, mask). *)
From Verif Require Import Num Res ListLib SortLib Arr FieldModel ScalarFieldModel FieldSpec ProfileModel.

Notation sample := (num * onum * bool)%type.
Definition sx (t : sample) : num := fst (fst t).
Definition sy (t : sample) : onum := snd (fst t).
Definition smask (t : sample) : bool := snd t.
(** the arrays x, y, mask put side by side *)
Definition zip3 (x : list num) (y : list onum) (m : list bool) : list sample := combine (combine x y) m.
(** what the attributes x, y and mask of the profile show *)
Definition samples (p : profile) : list sample := zip3 (px p) (yv p) (pm p).
(** x sorted, the three arrays have the same length, and masked points hold NaN *)
Definition prof_ok (p : profile) : Prop :=
  length (py p) = length (px p) /\ length (pm p) = length (px p) /\ nondecreasing (px p) /\ yv p = py p.
Definition subseq {A} (l' l : list A) : Prop := exists filt, length filt = length l /\ l' = keep filt l.
(** the mask recomputed from the values *)
Definition remask (t : sample) : sample := (sx t, sy t, isnan (sy t)).
(** array assignments with the right length *)
Definition legal (p : profile) (o : pop) : Prop :=
  match o with
  | PSetX v => length v = length (px p)
  | PSetY v => length v = length (px p)
  | PReplace x y => length x = length y
  | PSetMask m => length m = length (px p)
  | PAddAll q => prof_ok q
  | _ => True
  end.
Fixpoint legal_run (p : profile) (ops : list pop) : Prop :=
  match ops with [] => True | o :: r => legal p o /\ legal_run (fst (pstep p o)) r end.
(** what a successful operation does to the samples *)
Definition effect (p : profile) (o : pop) (p' : profile) : Prop :=
  match o with
  | PAdd x y => Permutation (samples p') ((x, y, isnan y) :: map remask (samples p))
  | PAddAll q => Permutation (samples p') (samples p ++ samples q)
  | PRemove i => Permutation (samples p') (map remask (delete_at (Z.to_nat i) (samples p)))
  | PSetX v => Permutation (samples p') (zip3 v (yv p) (pm p))
  | PSetY v => samples p' = zip3 (px p) v (map isnan v)
  | PReplace x y => Permutation (samples p') (zip3 x y (map isnan y))
  | PSetMask m => samples p' = map (fun t => (sx t, (if smask t then None else sy t), smask t)) (zip3 (px p) (yv p) m)
  | PSetMaskBool b => samples p' = map (fun t => (sx t, (if b then None else sy t), b)) (samples p)
  | PCrop _ _ => subseq (samples p') (samples p)
  | PCropInd a b => samples p' = slice (Z.to_nat a) (Z.to_nat b) (samples p)
  | PScale a b => Permutation (samples p')
       (map (fun t => (sx t * sfact a, oscale (sfact b) (sy t), if qeqb (sfact b) 1 then smask t else isnan (sy t)))%num (samples p))
  | PUnit AxX new => (exists f, (f * sc new)%num = sc (pux p) /\ Permutation (samples p') (map (fun t => (sx t * f, sy t, smask t)%num) (samples p)))
  | PUnit _ new => (exists f, (f * sc new)%num = sc (puy p) /\ samples p' = (map (fun t => (sx t, oscale f (sy t), isnan (sy t))) (samples p)))
  | PRemoveNans => samples p' = filter (fun t => negb (isnan (sy t))) (samples p)
  end.
Definition good_op (o : pop) : Prop := match o with PUnit _ new => good_unit new | _ => True end.
(** a sample given to the constructor, as the new profile shows it *)
Definition shown (t : sample) : sample := (sx t, (if smask t then None else sy t), (smask t || isnan (sy t))%bool).
(** the point is in the closed interval *)
Definition x_in (a b : num) (t : sample) : bool := (qleb a (sx t) && qleb (sx t) b)%bool.
(** r is the linear interpolation at v between the (x, y) points (x0, y0) and (x1, y1) *)
Definition interpolates (x0 y0 x1 y1 v r : num) : Prop :=
  on_line x0 x1 v y0 y1 r /\ (qmin y0 y1 <= r <= qmax y0 y1)%num.
(** the unmasked points, in order *)
Fixpoint unmasked (l : list sample) : list (num * onum) :=
  match l with [] => [] | t :: r => if smask t then unmasked r else (sx t, sy t) :: unmasked r end.
(** area under the polyline through the points; NaN when a value is NaN *)
Fixpoint area (l : list (num * onum)) : onum :=
  match l with
  | [] => Some 0%num
  | (x0, y0) :: r =>
    match r with
    | [] => option_map (fun _ => 0%num) y0
    | (x1, y1) :: _ =>
      match y0, y1, area r with Some a, Some b, Some s => Some ((x1 - x0) * (a + b) / 2 + s)%num | _, _, _ => None end
    end
  end.
(** NaN exactly where masked *)
Definition prof_clean (p : profile) : Prop := forall t, In t (samples p) -> smask t = isnan (sy t).
Definition all_masked (l : list sample) : Prop := forall t, In t l -> smask t = true.
