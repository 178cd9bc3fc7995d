(** * StabModel: the Stabilizer of videos (stabilize/stabilize.py), over the real numbers.
    Parameters, standing for calls to opencv and scipy: [found] (kp_detector.detect: the number of features of a frame),
    [estimate] (calcOpticalFlowPyrLK and estimateRigidTransform, lines 124-149, with the arctan2 of line 147: the translation and the
    angle between two frames, or None when there is no transform), [smooth] (Profile.smooth of a column, 190-193), [pad] (copyMakeBorder)
    and [warp] (warpAffine).  Simplifications: exact arithmetic (the code uses float32 for points and uint8 for the frames); verbose output is left out. *)
From Coq Require Import Reals List Bool ZArith.
From Verif Require Import Res FtleModel.
Import ListNotations.
#[local] Open Scope R_scope.

(** a frame: self.obj[i].values, rows along x and columns along y *)
Record frame : Type := mkframe { rows : nat; cols : nat; pix : nat -> nat -> R }.
(** [dx, dy, da] (152): opencv's x is along the columns *)
Record motion : Type := mkmotion { mx : R; my : R; ma : R }.
Definition still : motion := mkmotion 0 0 0.
Definition madd (a b : motion) : motion := mkmotion (mx a + mx b) (my a + my b) (ma a + ma b).
Definition msub (a b : motion) : motion := mkmotion (mx a - mx b) (my a - my b) (ma a - ma b).
(** the argument mode of __init__ (41, 61), any string *)
Inductive mode : Type := Continuous | FromFirst | OtherMode.
(** the argument border_type (198, 221-226), any string *)
Inductive border : Type := Black | Reflect | Replicate | OtherBorder.
(** the six coefficients of the matrix (243-249) *)
Record matrix : Type := mkmat { m00 : R; m01 : R; m02 : R; m10 : R; m11 : R; m12 : R }.
(** the attributes that change (60-66): kp_keypoints (its length), raw_transform and raw_trajectory, smoothed_trajectory and smoothed_transform, stabilized_obj *)
Record video : Type := mkvideo { axe_x : list R; axe_y : list R; frames : list frame }.
Record state : Type := mkstate { keypoints : nat; raw : option (list motion * list motion); smoothed : option (list motion * list motion); stabilized : option video }.
(** __init__ (41-66) *)
Definition new : state := mkstate 0 None None None.

(** numpy.cumsum(axis=0) *)
Fixpoint cumsum (acc : motion) (l : list motion) : list motion :=
  match l with [] => [] | t :: l' => madd acc t :: cumsum (madd acc t) l' end.
(** concatenate(([t[0]], t[1:] - t[0:-1])) (165-167) *)
Fixpoint steps (last : motion) (l : list motion) : list motion :=
  match l with [] => [] | t :: l' => msub t last :: steps t l' end.
(** the matrix of an angle and a translation (243-249, 316-325) *)
Definition matrix_of (t : motion) : matrix := mkmat (cos (ma t)) (- sin (ma t)) (mx t) (sin (ma t)) (cos (ma t)) (my t).
(** perspectiveTransform by the matrix completed by (0, 0, 1) *)
Definition apply_matrix (m : matrix) (p : R * R) : R * R :=
  (m00 m * fst p + m01 m * snd p + m02 m, m10 m * fst p + m11 m * snd p + m12 m).

Section Stabilizer.
Variable found : frame -> nat.
Variable estimate : frame -> frame -> option motion.
Variable smooth : list R -> list R.
Variable pad : border -> nat -> frame -> frame.
Variable warp : border -> matrix -> nat -> nat -> frame -> frame.
Variable md : mode.
Variable obj : video.

(** the loop of _compute_transform (89-157): the features of the previous frame are stored before they are counted (115-120) *)
Fixpoint estimates (prev : frame) (l : list frame) (n : nat) : nat * res (list motion) :=
  match l with
  | [] => (n, Ok [])
  | cur :: l' =>
      if Nat.eqb (found prev) 0 then (S n, Err GenericErr)
      else let t := match estimate prev cur with Some t => t | None => still end in
      match estimates (match md with Continuous => cur | _ => prev end) l' (S n) with
      | (n', Ok ts) => (n', Ok (t :: ts))
      | (n', Err e) => (n', Err e)
      end
  end.
(** _compute_transform (68-170) *)
Definition compute_transform (dense : bool) (s : state) : state * res unit :=
  match frames obj with
  | [] => (s, Err IndexErr)                                            (** self.obj[0] (90) *)
  | first :: others =>
      if dense && negb (Nat.eqb (length others) 0) then (s, Err GenericErr)   (** 94 *)
      else
        match estimates first others (keypoints s) with
        | (n, Err e) => (mkstate n (raw s) (smoothed s) (stabilized s), Err e)
        | (n, Ok ts) =>
            match md with
            | Continuous => (mkstate n (Some (ts, cumsum still ts)) (smoothed s) (stabilized s), Ok tt)
            | FromFirst =>
                match ts with
                | [] => (mkstate n (raw s) (smoothed s) (stabilized s), Err IndexErr)   (** prev_to_cur_transform[0] (165) *)
                | t :: _ => (mkstate n (Some (steps still ts, ts)) (smoothed s) (stabilized s), Ok tt)
                end
            | OtherMode => (mkstate n (raw s) (smoothed s) (stabilized s), Err ValueErr)
            end
        end
  end.
(** the three columns are smoothed separately (189-193) *)
Definition smooth_columns (l : list motion) : list motion :=
  map (fun v => mkmotion (fst (fst v)) (snd (fst v)) (snd v))
      (combine (combine (smooth (map mx l)) (smooth (map my l))) (smooth (map ma l))).
(** _smooth_transform (172-196) *)
Definition smooth_transform (s : state) : state * res unit :=
  match raw s with
  | None => (s, Err GenericErr)
  | Some (tr, tj) =>
      if Nat.eqb (length tj) 0 then (s, Err IndexErr)                  (** raw_trajectory[:, i] of an empty array (190) *)
      else let sm := smooth_columns tj in
           (mkstate (keypoints s) (raw s) (Some (sm, map (fun v => madd (fst v) (msub (fst (snd v)) (snd (snd v)))) (combine tr (combine sm tj)))) (stabilized s), Ok tt)
  end.
(** the axes of the result (233-238) *)
Definition new_axe_x (b : nat) : list R :=
  let dx := nth 1 (axe_x obj) 0 - nth 0 (axe_x obj) 0 in
  arange (nth 0 (axe_x obj) 0 - INR b * dx) (last (axe_x obj) 0 + INR b * dx + dx) dx.
Definition new_axe_y (b : nat) : list R :=
  let dx := nth 1 (axe_x obj) 0 - nth 0 (axe_x obj) 0 in
  let dy := nth 1 (axe_y obj) 0 - nth 0 (axe_y obj) 0 in
  arange (nth 0 (axe_y obj) 0 - INR b * dy) (last (axe_y obj) 0 + INR b * dy + dx) dy.
(** the loop body (242-268), the size given to warpAffine being that of lines 228-230 and 262: the border is doubled, the transformed frame is cropped *)
Definition crop (b : nat) (f : frame) : frame := mkframe (rows f - 2 * b) (cols f - 2 * b) (fun i j => pix f (i + b) (j + b)).
Definition transformed (bt : border) (b : nat) (t : motion) (f : frame) : frame :=
  crop b (warp bt (matrix_of t) (length (axe_x obj) + 2 * b + 2 * b) (length (axe_y obj) + 2 * b + 2 * b) (pad bt (2 * b) f)).
(** ScalarField.import_from_arrays and add_field: ValueError unless the axes have the sizes of the values (core/scalarfield.py) *)
Definition fits (ax ay : list R) (f : frame) : bool := Nat.eqb (rows f) (length ax) && Nat.eqb (cols f) (length ay).
(** _apply_transform (198-283) *)
Definition apply_transform (bt : border) (b : nat) (s : state) : state * res unit :=
  match smoothed s with
  | None => (s, Err GenericErr)
  | Some (_, tr) =>
      match bt with
      | OtherBorder => (s, Err GenericErr)                             (** KeyError (226) *)
      | _ =>
          let out := map (fun v => transformed bt b (fst v) (snd v)) (combine (still :: tr) (frames obj)) in
          if negb (forallb (fits (new_axe_x b) (new_axe_y b)) out) then (s, Err ValueErr)
          else if Nat.ltb (length (still :: tr)) (length (frames obj)) then (s, Err IndexErr)    (** transf[i] (244) *)
          else (mkstate (keypoints s) (raw s) (smoothed s) (Some (mkvideo (new_axe_x b) (new_axe_y b) out)), Ok tt)
      end
  end.
(** one step of a tracked point (316-331): the coordinates are exchanged, transformed and exchanged again *)
Definition next_point (t : motion) (p : R * R) : R * R :=
  let q := apply_matrix (matrix_of t) (snd p, fst p) in (snd q, fst q).
Fixpoint track (p : R * R) (l : list motion) : list (R * R) :=
  match l with [] => [p] | t :: l' => p :: track (next_point t p) l' end.
(** _apply_transform_to_point (285-340) *)
Definition track_points (pts : list (R * R)) (from_frame : Z) (s : state) : res (list (list (R * R))) :=
  match smoothed s with
  | None => Err GenericErr
  | Some _ =>
      if negb (Z.eqb from_frame 0) then Err GenericErr
      else match raw s with
      | None => Err TypeErr                                            (** no loop over None (315) *)
      | Some (tr, _) => Ok (map (fun p => track p tr) pts)
      end
  end.
(** get_stabilized_obj (342-365) *)
Definition then_ (a b : state -> state * res unit) (s : state) : state * res unit :=
  match a s with (s', Ok _) => b s' | e => e end.
Definition get_stabilized_obj (dense : bool) (bt : border) (b : nat) (s : state) : state * res (option video) :=
  match then_ (compute_transform dense) (then_ smooth_transform (apply_transform bt b)) s with
  | (s', Ok _) => (s', Ok (stabilized s'))
  | (s', Err e) => (s', Err e)
  end.
(** a call by the user *)
Inductive call : Type := Compute (dense : bool) | Smooth | Apply (bt : border) (b : nat) | Get (dense : bool) (bt : border) (b : nat).
Definition after (c : call) (s : state) : state :=
  match c with
  | Compute d => fst (compute_transform d s)
  | Smooth => fst (smooth_transform s)
  | Apply bt b => fst (apply_transform bt b s)
  | Get d bt b => fst (get_stabilized_obj d bt b s)
  end.
End Stabilizer.
