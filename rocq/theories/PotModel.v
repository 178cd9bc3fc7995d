(** * PotModel: the panel method for potential flows (potential_flow/potential_flow.py), over the real numbers.
    Parameters: [rnd] is int(np.round(.)), [quad] the value given by scipy.integrate.quad, [solve] is numpy.linalg.solve. *)
From Coq Require Import Reals List Bool.
From Verif Require Import Res.
Import ListNotations.
#[local] Open Scope R_scope.

Definition pt : Type := (R * R)%type.
(** Panel (506-554): the ends, the strength and the tangential velocity *)
Record panel : Type := mkpanel { p_a : pt; p_b : pt; p_sigma : R; p_vt : R }.
(** Panel.__init__ (510-529) *)
Definition new_panel (a b : pt) : res panel :=
  if Req_EM_T (fst a) (fst b) then if Req_EM_T (snd a) (snd b) then Err ValueErr else Ok (mkpanel a b 0 0) else Ok (mkpanel a b 0 0).
Definition p_xc (p : panel) : R := (fst (p_a p) + fst (p_b p)) / 2.
Definition p_yc (p : panel) : R := (snd (p_a p) + snd (p_b p)) / 2.
Definition p_len (p : panel) : R := sqrt ((fst (p_b p) - fst (p_a p)) ^ 2 + (snd (p_b p) - snd (p_a p)) ^ 2).
(** the orientation (530-536) *)
Definition p_beta (p : panel) : R :=
  if Rle_dec (fst (p_b p) - fst (p_a p)) 0 then acos ((snd (p_b p) - snd (p_a p)) / p_len p)
  else PI + acos (- (snd (p_b p) - snd (p_a p)) / p_len p).
Definition p_sin (p : panel) : R := sin (p_beta p).
Definition p_cos (p : panel) : R := cos (p_beta p).
(** Panel.vector (556-558) *)
Definition p_vector (p : panel) : R * R := (- p_vt p * sin (p_beta p), p_vt p * cos (p_beta p)).
(** Panel.on_panel (575-593), with the coefficients of 541-554 and eps_abs = 1e-4 *)
Definition line_dist (p : panel) (x y : R) : R :=
  if Req_EM_T (fst (p_a p)) (fst (p_b p)) then Rabs (x - p_xc p)
  else if Req_EM_T (snd (p_a p)) (snd (p_b p)) then Rabs (y - p_yc p)
  else
    let a := (snd (p_b p) - snd (p_a p)) / (fst (p_b p) - fst (p_a p)) in
    let b := snd (p_b p) - a * fst (p_b p) in
    Rabs (a * x - y + b) / sqrt (1 + a ^ 2).
Definition on_panel (p : panel) (x y : R) : bool :=
  if Rlt_dec (p_len p ^ 2 / 2) ((p_xc p - x) ^ 2 + (p_yc p - y) ^ 2) then false
  else if Rlt_dec (line_dist p x y) (/ 10000) then true else false.

(** ** object_1D.refine (424-454) *)
Section Refine.
Variable rnd : R -> nat.
Definition seg_len (a b : pt) : R := sqrt ((fst b - fst a) ^ 2 + (snd b - snd a) ^ 2).
Fixpoint seg_lens (l : list pt) : list R := match l with a :: ((b :: _) as r) => seg_len a b :: seg_lens r | _ => [] end.
Fixpoint min_of (x : R) (l : list R) : R := match l with [] => x | y :: r => min_of (Rmin x y) r end.
(** np.linspace(a, b, n + 1)[:-1] *)
Definition cut (a b : pt) (n : nat) : list pt :=
  map (fun k => (fst a + INR k * ((fst b - fst a) / INR n), snd a + INR k * ((snd b - snd a) / INR n))) (seq 0 n).
(** the points put for one segment: a null step gives 0/0 (ValueError) or an infinity (OverflowError) *)
Definition one_segment (delta : R) (a b : pt) : res (list pt) :=
  if Req_EM_T delta 0 then (if Req_EM_T (seg_len a b) 0 then Err ValueErr else Err GenericErr)
  else let n := rnd (seg_len a b / delta) in if Nat.leb n 1 then Ok [a] else Ok (cut a b n).
Fixpoint segments (delta : R) (l : list pt) : res (list pt) :=
  match l with
  | a :: ((b :: _) as r) => let* s := one_segment delta a b in let* t := segments delta r in Ok (s ++ t)
  | _ => Ok []
  end.
(** [res] is a positive integer *)
Definition refine (l : list pt) (res : nat) : Res.res (list pt) :=
  match l, seg_lens l with
  | p :: _, d :: ds => let* s := segments (min_of d ds / INR res) l in Ok (s ++ [p])
  | _, _ => Err ValueErr
  end.
End Refine.
(** _actualize_panels (396-404) *)
Fixpoint panels_of (l : list pt) : res (list panel) :=
  match l with
  | a :: ((b :: _) as r) => let* p := new_panel a b in let* q := panels_of r in Ok (p :: q)
  | _ => Ok []
  end.

(** ** objects: the nodes, the panels, and whether kind == 'wall' *)
Record obj : Type := mkobj { o_nodes : list pt; o_panels : list panel; o_wall : bool }.
Definition new_obj (rnd : R -> nat) (l : list pt) (wall : bool) (res : nat) : Res.res obj :=
  let* n := refine rnd l res in let* p := panels_of n in Ok (mkobj n p wall).
(** object_2D.__init__ (486-489): the path is closed *)
Definition pt_eqb (a b : pt) : bool := if Req_EM_T (fst a) (fst b) then if Req_EM_T (snd a) (snd b) then true else false else false.
Definition closed_path (l : list pt) : list pt := match l with [] => [] | p :: _ => if pt_eqb p (last l p) then l else l ++ [p] end.
(** inverse_normals (415-422) *)
Definition inverse_normals (o : obj) : res obj := let n := rev (o_nodes o) in let* p := panels_of n in Ok (mkobj n p (o_wall o)).

(** ** System (37-47) *)
Record system : Type := mksys { s_u : R; s_alpha : R; s_1d : list obj; s_2d : list obj; s_refresh : bool }.
Definition new_system (u alpha : R) : system := mksys u alpha [] [] false.
(** add_object (49-81): the constructor of points has no argument res, nor two coordinates *)
Definition add_object (rnd : R -> nat) (s : system) (dim : nat) (l : list pt) (wall : bool) (res : nat) : Res.res system :=
  match dim with
  | 0%nat => Err TypeErr
  | 1%nat =>
    raise ValueErr when (Nat.ltb res 1) ;;
    let* o := new_obj rnd l wall res in Ok (mksys (s_u s) (s_alpha s) (s_1d s ++ [o]) (s_2d s) true)
  | 2%nat => let* o := new_obj rnd (closed_path l) wall res in Ok (mksys (s_u s) (s_alpha s) (s_1d s) (s_2d s ++ [o]) true)
  | _ => Err ValueErr
  end.
(** get_solid_panels (83-95) *)
Definition wall_panels (os : list obj) : list panel := flat_map (fun o => if o_wall o then o_panels o else []) os.
Definition solid_panels (s : system) : list panel := wall_panels (s_1d s) ++ wall_panels (s_2d s).
(** what is put in the panels of the objects *)
Fixpoint put_panels (l : list panel) (os : list obj) : list obj :=
  match os with
  | [] => []
  | o :: r => if o_wall o then mkobj (o_nodes o) (firstn (length (o_panels o)) l) true :: put_panels (skipn (length (o_panels o)) l) r else o :: put_panels l r
  end.

Section Flow.
Variable quad : (R -> R) -> R -> R -> R.
Variable solve : list (list R) -> list R -> res (list R).
(** integral (608-643) *)
Definition integrand (x y : R) (p : panel) (dxdz dydz s : R) : R :=
  let px := x - fst (p_a p) in let py := y - snd (p_a p) in
  let a := px ^ 2 + py ^ 2 in
  let b := 2 * px * p_sin p - 2 * py * p_cos p in
  let c := p_sin p ^ 2 + p_cos p ^ 2 in
  ((px + p_sin p * s) * dxdz + (py - p_cos p * s) * dydz) / (a + b * s + c * s ^ 2).
Definition integral (x y : R) (p : panel) (dxdz dydz : R) : R := quad (integrand x y p dxdz dydz) 0 (p_len p).
Fixpoint dot_list (a b : list R) : R := match a, b with x :: r, y :: t => x * y + dot_list r t | _, _ => 0 end.
(** the matrices and right-hand sides (118-128, 137-147) *)
Fixpoint indexed {X} (k : nat) (l : list X) : list (nat * X) := match l with [] => [] | x :: r => (k, x) :: indexed (S k) r end.
Definition normal_matrix (ps : list panel) : list (list R) :=
  map (fun ip => map (fun jp => if Nat.eqb (fst ip) (fst jp) then / 2 else / 2 / PI * integral (p_xc (snd ip)) (p_yc (snd ip)) (snd jp) (p_cos (snd ip)) (p_sin (snd ip))) (indexed 0 ps)) (indexed 0 ps).
Definition tangent_matrix (ps : list panel) : list (list R) :=
  map (fun ip => map (fun jp => if Nat.eqb (fst ip) (fst jp) then 0 else / 2 / PI * integral (p_xc (snd ip)) (p_yc (snd ip)) (snd jp) (- sin (p_beta (snd ip))) (cos (p_beta (snd ip)))) (indexed 0 ps)) (indexed 0 ps).
(** solving_sigma (107-151) *)
Definition solved_panels (u alpha : R) (ps : list panel) : res (list panel) :=
  let* sg := solve (normal_matrix ps) (map (fun p => - u * cos (alpha - p_beta p)) ps) in
  let vt := map (fun rp => dot_list (fst rp) sg + u * sin (alpha - p_beta (snd rp))) (combine (tangent_matrix ps) ps) in
  Ok (map (fun q => mkpanel (p_a (fst q)) (p_b (fst q)) (fst (snd q)) (snd (snd q))) (combine ps (combine sg vt))).
Definition solving_sigma (s : system) : res system :=
  let* ps := solved_panels (s_u s) (s_alpha s) (solid_panels s) in
  let n := length (wall_panels (s_1d s)) in
  Ok (mksys (s_u s) (s_alpha s) (put_panels (firstn n ps) (s_1d s)) (put_panels (skipn n ps) (s_2d s)) false).
(** compute_velocity (157-182), the strengths being known *)
Fixpoint sum_list (l : list R) : R := match l with [] => 0 | x :: r => x + sum_list r end.
Definition velocity_with (u alpha : R) (ps : list panel) (x y : R) : R * R :=
  match find (fun p => on_panel p x y) ps with
  | Some p => p_vector p
  | None =>
    let vx := u * cos alpha + / 2 / PI * sum_list (map (fun p => p_sigma p * integral x y p 1 0) ps) in
    let vy := u * sin alpha + / 2 / PI * sum_list (map (fun p => p_sigma p * integral x y p 0 1) ps) in
    if Rlt_dec (10 ^ 30) (Rabs vx) then (0, 0) else if Rlt_dec (10 ^ 30) (Rabs vy) then (0, 0) else (vx, vy)
  end.
Definition refreshed (s : system) : res system := if s_refresh s then solving_sigma s else Ok s.
Definition compute_velocity (s : system) (x y : R) : res (system * (R * R)) :=
  let* t := refreshed s in Ok (t, velocity_with (s_u t) (s_alpha t) (solid_panels t) x y).
(** compute_velocity_on_grid (184-223): what is shown at each point of the axes, None when it is masked.  [inside] is whether a point is in a solid
    path of matplotlib *)
Definition velocity_on_grid (inside : list pt -> R -> R -> bool) (remove : bool) (s : system) (gx gy : list R) : res (system * list (list (option (R * R)))) :=
  let* t := refreshed s in
  let paths := map o_nodes (filter o_wall (s_2d t)) in
  let cell x y := if (remove && existsb (fun q => inside q x y) paths)%bool then None else Some (velocity_with (s_u t) (s_alpha t) (solid_panels t) x y) in
  let rows := map (fun y => map (fun x => cell x y) gx) gy in
  Ok (t, map (fun j => map (fun i => nth j (nth i rows []) None) (seq 0 (length gy))) (seq 0 (length gx))).
End Flow.

(** compute_velocity_on_line (225-264): the positions of the points of the line *)
Definition linspace (a b : R) (n : nat) : list R := map (fun k => a + INR k * ((b - a) / INR (n - 1))) (seq 0 n).
Definition line_positions (a b : pt) (n : nat) : list R :=
  let x := linspace (fst a) (fst b) n in
  let y := linspace (snd a) (snd b) n in
  let mx := min_of (nth 0 x 0) x in
  let my := min_of (nth 0 y 0) y in
  let r := map (fun q => sqrt ((fst q - mx) ^ 2 + (snd q - my) ^ 2)) (combine x y) in
  map (fun d => d - nth 0 r 0) r.
(** compute_pressure_from_velocity (266-302) at one point; u_inf is not null *)
Definition pressure (u vx vy : R) : R := 1 - (vx ^ 2 + vy ^ 2) / u ^ 2.

(** ** a history on one system *)
Inductive event : Type :=
| Add (dim : nat) (l : list pt) (wall : bool) (res : nat)
| Velocity (x y : R)
| Solve
| Inverse (k : nat)       (** inverse_normals on the solid number k *).
Section Run.
Variable rnd : R -> nat.
Variable quad : (R -> R) -> R -> R -> R.
Variable solve : list (list R) -> list R -> res (list R).
Fixpoint replace_at {X} (l : list X) (k : nat) (x : X) : list X := match l, k with [], _ => [] | _ :: r, O => x :: r | y :: r, S j => y :: replace_at r j x end.
(** an exception leaves the system as it was *)
Definition play (s : system) (e : event) : system * option (res (R * R)) :=
  match e with
  | Add d l w r => (match add_object rnd s d l w r with Ok t => t | Err _ => s end, None)
  | Velocity x y => match compute_velocity quad solve s x y with Ok (t, v) => (t, Some (Ok v)) | Err e => (s, Some (Err e)) end
  | Solve => (match solving_sigma quad solve s with Ok t => t | Err _ => s end, None)
  | Inverse k =>
    (match nth_error (s_2d s) k with
     | Some o => match inverse_normals o with Ok o' => mksys (s_u s) (s_alpha s) (s_1d s) (replace_at (s_2d s) k o') (s_refresh s) | Err _ => s end
     | None => s
     end, None)
  end.
Fixpoint plays (s : system) (l : list event) : system * list (option (res (R * R))) :=
  match l with [] => (s, []) | e :: r => let (t, o) := play s e in let (u, os) := plays t r in (u, o :: os) end.
End Run.
