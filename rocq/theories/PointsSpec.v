(** * PointsSpec: a point set is the list of its points with their values. *)
From Verif Require Import Num Res ListLib SortLib SeqSpec Arr FieldModel ScalarFieldModel ProfileModel ProfileSpec PointsModel.

(** a point and its value, if the set has values *)
Notation triple := ((num * num) * option num)%type.
Definition triples (p : points) : list triple :=
  match pv p with
  | [] => map (fun q => (q, None)) (xy p)
  | _ => combine (xy p) (map Some (pv p))
  end.
(** no values, or one value per point *)
Definition pts_ok (p : points) : Prop := pv p = [] \/ length (pv p) = length (xy p).
Definition same_units (p q : points) : Prop := ptx p = ptx q /\ pty p = pty q /\ ptv p = ptv q.
(** closed interval; no interval means everything *)
Definition in_iv (iv : option (num * num)) (a : num) : bool :=
  match iv with None => true | Some (lo, hi) => (qleb lo a && qleb a hi)%bool end.
Definition in_box (ivx ivy ivv : option (num * num)) (t : triple) : bool :=
  (in_iv ivx (fst (fst t)) && in_iv ivy (snd (fst t)) &&
   match snd t with None => true | Some v => in_iv ivv v end)%bool.
(** strictly inside the intervals that are given *)
Definition in_area (ivx ivy : option (num * num)) (q : num * num) : Prop :=
  (forall lo hi, ivx = Some (lo, hi) -> (lo < fst q /\ fst q < hi)%num) /\
  (forall lo hi, ivy = Some (lo, hi) -> (lo < snd q /\ snd q < hi)%num).
(** python indices of a list of n elements; negative ones count from the end *)
Definition designates (n : nat) (i : Z) (k : nat) : Prop := k < n /\ (i = Z.of_nat k \/ i = Z.of_nat k - Z.of_nat n)%Z.
Definition index_ok (n : nat) (i : Z) : Prop := (- Z.of_nat n <= i < Z.of_nat n)%Z.
(** the coordinate used as sorting key *)
Definition key (a : ptaxis) (t : triple) : num :=
  match a with PtX => fst (fst t) | PtY => snd (fst t) | _ => match snd t with Some v => v | None => qz 0 end end.
(** adding with a value exactly when the other points have one *)
Definition v_matches (p : points) (v : option num) : Prop :=
  match v with None => pv p = [] | Some _ => length (pv p) = length (xy p) end.
(** physical coordinates: number times unit scale *)
Definition phys (p : points) : list triple :=
  map (fun t => ((fst (fst t) * sc (ptx p), snd (fst t) * sc (pty p)), option_map (fun v => v * sc (ptv p)) (snd t)))%num
      (triples p).
(** a coordinate seen from the new origin *)
Definition shifted (o : option num) (a : num) : num := match o with None => a | Some c => (a - c)%num end.
Definition sqdist (a b : num * num) : num :=
  ((fst a - fst b) * (fst a - fst b) + (snd a - snd b) * (snd a - snd b))%num.
(** one of the indices designates position k *)
Definition is_designated (n : nat) (inds : list Z) (k : nat) : Prop := exists i, In i inds /\ designates n i k.
Definition unit_of (a : ptaxis) (p : points) : unit_t := match a with PtX => ptx p | PtY => pty p | _ => ptv p end.
Definition with_unit (a : ptaxis) (p p' : points) (new : unit_t) : Prop :=
  ptx p' = (match a with PtX => new | _ => ptx p end) /\ pty p' = (match a with PtY => new | _ => pty p end) /\
  ptv p' = (match a with PtV => new | _ => ptv p end).
Definition dims_match (p q : points) : Prop := dim (ptx p) = dim (ptx q) /\ dim (pty p) = dim (pty q) /\ dim (ptv p) = dim (ptv q).
(** the attribute of the point used as profile coordinate *)
Definition get (a : ptaxis) (t : triple) : option num :=
  match a with PtX => Some (fst (fst t)) | PtY => Some (snd (fst t)) | PtV => snd t | PtOther => None end.
(** points are added with a value exactly when the others have one *)
Definition tlegal (p : points) (o : top) : Prop := match o with TAdd _ v => v_matches p v | _ => True end.
Fixpoint tlegal_run (asort : list num -> list nat) (p : points) (ops : list top) : Prop :=
  match ops with [] => True | o :: r => tlegal p o /\ tlegal_run asort (fst (tstep asort p o)) r end.
Definition trun (asort : list num -> list nat) (p : points) (ops : list top) : points :=
  fold_left (fun q o => fst (tstep asort q o)) ops p.
(** what get_velocity should show between two samples (time, position) of the trajectory *)
Definition mid_time (u w : num * (num * num)) : num := ((fst u + fst w) / 2)%num.
Definition speed_sample (coord : num * num -> num) (u w : num * (num * num)) : sample :=
  (mid_time u w, Some ((coord (snd w) - coord (snd u)) / (fst w - fst u))%num, false).
(** node i of the axis is the node closest to v, the first one in case of a tie *)
Definition closest (axe : list num) (v : num) (i : nat) : bool :=
  (Nat.ltb i (length axe) &&
   forallb (fun k => qleb (qabs (nths axe i - v)) (qabs (nths axe k - v)) &&
                     (negb (Nat.ltb k i) || qltb (qabs (nths axe i - v)) (qabs (nths axe k - v))))%num%bool
           (seq 0 (length axe)))%bool.
(** weights of the points: their values or 1 *)
Definition weights (ponderated : bool) (p : points) : list ((num * num) * num) :=
  if ponderated then combine (xy p) (pv p) else map (fun q => (q, 1%num)) (xy p).
Definition total (l : list num) : num := fold_right Qcplus 0%num l.

(** an oriented point set: every point with its value and its own directions *)
Definition op_ok (o : opoints) : Prop := pts_ok (opt o) /\ length (ori o) = length (xy (opt o)).
Definition oriented (o : opoints) : list (triple * orient) := combine (triples (opt o)) (ori o).
(** a temporal point set: the point sets with their times *)
Definition snapshots (t : tpoints) : list (num * points) := combine (ttimes t) (tsets t).
(** one time per point set, in increasing order *)
Definition tp_ok (t : tpoints) : Prop := length (ttimes t) = length (tsets t) /\ nondecreasing (ttimes t).
Definition crop_snapshot (ivx ivy ivv : option (num * num)) (s : num * points) : num * points := (fst s, pts_crop (snd s) ivx ivy ivv).
(** histories of a temporal point set *)
Inductive tpop := TPAdd (p : points) (time : num) (u : unit_t) | TPRemove (i : Z).
Definition tpstep (asort : list num -> list nat) (t : tpoints) (o : tpop) : tpoints :=
  match o with TPAdd p time u => fst (tp_add asort t p time u) | TPRemove i => fst (tp_remove t [i]) end.
