(** * StreamModel: stream lines, field lines and track lines (field_treatment/field_treatment.py 601-611 and 616-1031), over the real numbers.
    Parameters: the bilinear interpolation of the velocity ([vel]), the solver of scipy ([flow]), the masked places ([masked]). *)
From Coq Require Import Reals List Bool ZArith.
From Verif Require Import Res.
Import ListNotations.
#[local] Open Scope R_scope.

Definition pt : Type := (R * R)%type.
Definition Rltb (a b : R) : bool := if Rlt_dec a b then true else false.
Definition Reqb (a b : R) : bool := if Req_EM_T a b then true else false.
Definition norm (v : R * R) : R := sqrt (fst v ^ 2 + snd v ^ 2).
(** the extent of the field: axe_x[0], axe_x[-1], axe_y[0], axe_y[-1] *)
Record extent : Type := mkext { xa : R; xb : R; ya : R; yb : R }.
(** is_outside (873-884) *)
Definition is_outside (e : extent) (p : pt) : bool :=
  if Rlt_dec (fst p) (xa e) then true else if Rlt_dec (xb e) (fst p) then true else if Rlt_dec (snd p) (ya e) then true else if Rlt_dec (yb e) (snd p) then true else false.

(** ** get_streamlines (748-947) *)
Section Lines.
Variable e : extent.
(** numpy and scipy: [flow p t] is the place given by ODE.integrate at the time [t] (None: infinite) from the point [p], in dimensionless coordinates, and
    whether the solver is still successful; [vel] is [fun], the dimensionless velocity; [masked] the test of the mask (843-847).  A warning of the solver is not raised. *)
Variable flow : pt -> option R -> pt * bool.
Variable vel : pt -> R * R.
Variable masked : pt -> bool.
(** [dxy] is the mean of the dimensionless steps (826) *)
Variable dxy : R.

(** the dimensionless coordinates (820-821): an array of integers stays an array of integers, so that the result is truncated *)
Definition scaled (p : pt) : pt := ((fst p - xa e) / (xb e - xa e), (snd p - ya e) / (yb e - ya e)).
Definition truncate (r : R) : R := if Rlt_dec r 0 then - IZR (Int_part (- r)) else IZR (Int_part r).
Inductive seeds : Type := One (p : pt) | Floats (l : list pt) | Ints (l : list (Z * Z)).
(** 795-796, 820-821: one point is converted to an array of floats *)
Definition scaled_seeds (s : seeds) : list pt :=
  match s with
  | One p => [scaled p]
  | Floats l => map scaled l
  | Ints l => map (fun z => let p := scaled (IZR (fst z), IZR (snd z)) in (truncate (fst p), truncate (snd p))) l
  end.
(** back to the coordinates of the field (934-936) *)
Definition unscaled (p : pt) : pt := (xa e + fst p * (xb e - xa e), ya e + snd p * (yb e - ya e)).
Definition unit_square : extent := mkext 0 1 0 1.
Inductive kind : Set := Time | Length.
(** the time step (909-915); Err stands for the exceptions that stop the line; the inner None for an infinite step *)
Definition time_step (k : kind) (resolution : R) (last : pt) : res (option R) :=
  match k with
  | Time => Ok (Some resolution)
  | Length => if is_outside unit_square last then Err ValueErr else if masked last then Err ValueErr
              else if Reqb (norm (vel last)) 0 then Ok None else Ok (Some (dxy / norm (vel last) * resolution))
  end.
Definition add_time (t h : option R) : option R := match t, h with Some t, Some h => Some (t + h) | _, _ => None end.
(** the loop (907-928): [n] is the number of steps left before max_steps is exceeded, [p] the first point, [last] and [t] the last point and its time *)
Fixpoint line (n : nat) (k : kind) (resolution : R) (p last : pt) (t : option R) : list (pt * option R) :=
  match n with
  | O => []
  | S m =>
    match time_step k resolution last with
    | Err _ => []
    | Ok h =>
      let (q, ok) := flow p (add_time t h) in
      let stop := match k with Time => Rltb ((fst q - fst last) ^ 2 + (snd q - snd last) ^ 2) ((dxy / 40) ^ 2) | Length => false end in
      if stop then [] else (q, add_time t h) :: (if ok then line m k resolution p q (add_time t h) else [])
    end
  end.
(** one line, with the time of each point (None: infinite) *)
Definition one_line (max_steps : nat) (k : kind) (resolution : R) (p : pt) : list (pt * option R) :=
  map (fun q => (unscaled (fst q), snd q)) ((p, Some 0) :: line max_steps k resolution p p (Some 0)).
Inductive lines : Type := Single (l : list (pt * option R)) | Several (l : list (list (pt * option R))).
(** [hide] is boundary_tr == 'hide', that is only checked (808-811) *)
Definition get_streamlines (s : seeds) (max_steps : nat) (k : kind) (resolution : R) (hide : bool) : lines :=
  match map (one_line max_steps k resolution) (filter (fun p => negb (is_outside unit_square p)) (scaled_seeds s)) with
  | [l] => Single l
  | ls => Several ls
  end.
End Lines.

(** the dimensionless velocity (819, 827-831) from a velocity, [ad] being the greatest magnitude; reversed or not (839-871) *)
Definition dimensionless (e : extent) (ad : R) (reverse : bool) (v : R * R) : R * R :=
  let fact := (xb e - xa e) / (yb e - ya e) in
  let u := (fst v / ad / fact, snd v / ad) in if reverse then (- fst u, - snd u) else u.
(** get_fieldlines (978-981) and get_track_field (601-611): the velocities whose stream lines are followed *)
Definition field_velocity (v : R * R) : R * R := (snd v, - fst v).
Definition track_velocity (v : R * R) : R * R := (- snd v, fst v).
(** the dimensionless velocity followed by each function: get_tracklines does not pass on [reverse] (1027-1031) *)
Inductive what : Set := Streamlines | Fieldlines | Tracklines.
Definition followed (w : what) (e : extent) (ad : R) (reverse : bool) (v : R * R) : R * R :=
  match w with
  | Streamlines => dimensionless e ad reverse v
  | Fieldlines => dimensionless e ad reverse (field_velocity v)
  | Tracklines => dimensionless e ad false (track_velocity v)
  end.

(** ** get_streamlines_fast (616-746), for one starting point; [fuel] bounds the loop, that stops by itself *)
Section Fast.
Variable e : extent.
Variable vel : pt -> R * R.
Variable delta : R.       (** deltaabs *)
Variable longmax : nat.
Variable reverse : bool.
Definition nth_pt (l : list pt) (k : nat) : pt := nth k l (0, 0).
(** [stream] holds the points found so far, [i] of them *)
Fixpoint fast_line (fuel : nat) (stream : list pt) : list pt :=
  match fuel with
  | O => stream
  | S f =>
    let i := length stream in
    let p := nth_pt stream (i - 1) in
    let v := vel p in
    if Reqb (fst v) 0 && Reqb (snd v) 0 then stream
    else if Nat.leb (longmax - 1) i then stream
    else if Nat.ltb 15 i && existsb (fun q => Rltb ((fst q - fst p) ^ 2 + (snd q - snd p) ^ 2) (delta ^ 2 / 2)) (firstn (i - 10) stream) then stream
    else
      let n := if reverse then - norm v else norm v in
      let q := (fst p + fst v / n * delta, snd p + snd v / n * delta) in
      let stream' := stream ++ [q] in
      if is_outside e q then stream' else fast_line f stream'
  end.
Definition fast_streamlines (xy : list pt) : option (list (list pt)) :=
  match map (fun p => fast_line longmax [p]) (filter (fun p => negb (is_outside e p)) xy) with [] => None | l => Some l end.
End Fast.
