(** * CellModel: the positions of the critical points inside the cells (vortex_detection/vortex_detection.py, VF.get_cp_position 179-329,
    and vortex_detection/levelset_data.py get_sol 27-34).  Over the real numbers; the divisions by zero and the roots of negative numbers
    give the infinities and the NaN of numpy (a null divisor is +0, as it is the difference of equal numbers). *)
From Coq Require Import Reals List Bool.
From Verif Require Import Res PbiModel.
Import ListNotations.
#[local] Open Scope R_scope.

(** ** numbers of numpy *)
Inductive er : Type := Fin (r : R) | PInf | MInf | Nan.
Definition edivR (x : R) (y : R) : er :=
  if Req_EM_T y 0 then (if Rlt_dec 0 x then PInf else if Rlt_dec x 0 then MInf else Nan) else Fin (x / y).
(** x**.5 *)
Definition eroot (x : R) : er := if Rlt_dec x 0 then Nan else Fin (sqrt x).
Definition eopp (x : er) : er := match x with Fin r => Fin (- r) | PInf => MInf | MInf => PInf | Nan => Nan end.
Definition eadd (x y : er) : er :=
  match x, y with
  | Fin a, Fin b => Fin (a + b)
  | Nan, _ | _, Nan | PInf, MInf | MInf, PInf => Nan
  | PInf, _ | _, PInf => PInf
  | MInf, _ | _, MInf => MInf
  end.
Definition esub (x y : er) : er := eadd x (eopp y).
(** the product by a number *)
Definition emulR (k : R) (x : er) : er :=
  match x with
  | Fin r => Fin (k * r)
  | Nan => Nan
  | PInf => if Rlt_dec 0 k then PInf else if Rlt_dec k 0 then MInf else Nan
  | MInf => if Rlt_dec 0 k then MInf else if Rlt_dec k 0 then PInf else Nan
  end.
(** the division by a number *)
Definition ediv (x : er) (y : R) : er :=
  match x with
  | Fin r => edivR r y
  | Nan => Nan
  | PInf => if Rlt_dec y 0 then MInf else PInf
  | MInf => if Rlt_dec y 0 then PInf else MInf
  end.
(** comparisons with a number; those with NaN are false *)
Definition eltb (x : er) (y : R) : bool := match x with Fin r => if Rlt_dec r y then true else false | MInf => true | _ => false end.
Definition egtb (x : er) (y : R) : bool := match x with Fin r => if Rlt_dec y r then true else false | PInf => true | _ => false end.
Definition is_nan (x : er) : bool := match x with Nan => true | _ => false end.

(** ** get_sol (levelset_data.py 27-34): the two solutions, written with the same polynomials.  Vx_1 and Vx_2 are on the first row (y), and
    Vx_1 and Vx_3 on the first column (x). *)
Section Sol.
Variables Vx_1 Vx_2 Vx_3 Vx_4 Vy_1 Vy_2 Vy_3 Vy_4 dx dy : R.
Definition ls_num : R := 2*Vx_1*Vy_2 - Vx_1*Vy_4 - 2*Vx_2*Vy_1 + Vx_2*Vy_3 - Vx_3*Vy_2 + Vx_4*Vy_1.
Definition ls_a : R := Vx_1*Vy_2 - Vx_1*Vy_4 - Vx_2*Vy_1 + Vx_2*Vy_3 - Vx_3*Vy_2 + Vx_3*Vy_4 + Vx_4*Vy_1 - Vx_4*Vy_3.
Definition ls_2a : R := 2*Vx_1*Vy_2 - 2*Vx_1*Vy_4 - 2*Vx_2*Vy_1 + 2*Vx_2*Vy_3 - 2*Vx_3*Vy_2 + 2*Vx_3*Vy_4 + 2*Vx_4*Vy_1 - 2*Vx_4*Vy_3.
Definition ls_disc : R :=
  Vx_1^2*Vy_4^2 - 2*Vx_1*Vx_2*Vy_3*Vy_4 - 2*Vx_1*Vx_3*Vy_2*Vy_4 - 2*Vx_1*Vx_4*Vy_1*Vy_4 + 4*Vx_1*Vx_4*Vy_2*Vy_3 + Vx_2^2*Vy_3^2 +
  4*Vx_2*Vx_3*Vy_1*Vy_4 - 2*Vx_2*Vx_3*Vy_2*Vy_3 - 2*Vx_2*Vx_4*Vy_1*Vy_3 + Vx_3^2*Vy_2^2 - 2*Vx_3*Vx_4*Vy_1*Vy_2 + Vx_4^2*Vy_1^2.
Definition ls_c : R := - Vx_1*Vy_2*dy - Vx_1*Vy_3*dy + Vx_1*Vy_4*dy + Vx_2*Vy_1*dy + Vx_3*Vy_1*dy - Vx_4*Vy_1*dy.
Definition ls_e : R := Vx_1*Vy_3 - Vx_1*Vy_4 - Vx_2*Vy_3 + Vx_2*Vy_4 - Vx_3*Vy_1 + Vx_3*Vy_2 + Vx_4*Vy_1 - Vx_4*Vy_2.
(** s01, s11 *)
Definition sol_y (plus : bool) : er :=
  (if plus then eadd else esub) (edivR (dy * ls_num) (2 * ls_a)) (match eroot (dy^2 * ls_disc) with Fin r => edivR r ls_2a | x => ediv x ls_2a end).
(** s00, s10 *)
Definition sol_x (plus : bool) : er := ediv (emulR (- dx) (eadd (Fin ls_c) (emulR ls_a (sol_y plus)))) (dy * ls_e).
End Sol.

(** ** get_cp_position (179-329) *)
(** np.where(x < axe)[0][0], when there is one *)
Fixpoint first_above (x : R) (ax : nat -> R) (k n : nat) : option nat :=
  match n with
  | O => None
  | S r => if Rlt_dec x (ax k) then Some k else first_above x ax (S k) r
  end.
(** the corners of a cell whose components add up to zero (238) *)
Definition null_sum (c : vf) : list (nat * nat) :=
  filter (fun p => if Req_EM_T (fvx c (fst p) (snd p) + fvy c (fst p) (snd p)) 0 then true else false) [(0, 0); (0, 1); (1, 0); (1, 1)]%nat.
Definition any_corner (P : nat -> nat -> bool) : bool := P 0%nat 0%nat || P 0%nat 1%nat || P 1%nat 0%nat || P 1%nat 1%nat.
Definition is_zero (x : R) : bool := if Req_EM_T x 0 then true else false.
(** the solutions that are not seen outside of the cell (287-296) *)
Definition inside_sols (c : vf) (dx dy : R) : list (er * er) :=
  let s plus := (sol_x (fvx c 0 0) (fvx c 0 1) (fvx c 1 0) (fvx c 1 1) (fvy c 0 0) (fvy c 0 1) (fvy c 1 0) (fvy c 1 1) dx dy plus,
                 sol_y (fvx c 0 0) (fvx c 0 1) (fvx c 1 0) (fvx c 1 1) (fvy c 0 0) (fvy c 0 1) (fvy c 1 0) (fvy c 1 1) dy plus) in
  filter (fun p => negb (eltb (fst p) 0 || egtb (fst p) dx || eltb (snd p) 0 || egtb (snd p) dy)) [s false; s true].
(** a position; None when a coordinate is NaN (262).  What is kept by inside_sols is in the cell or NaN *)
Definition at_sol (x0 y0 : R) (p : er * er) : option (R * R) :=
  match p with (Fin x, Fin y) => Some (x + x0, y + y0) | _ => None end.
Definition er_eqb (x y : er) : bool := match x, y with Fin a, Fin b => if Req_EM_T a b then true else false | PInf, PInf | MInf, MInf => true | _, _ => false end.
(** np.mean of two values that are not NaN *)
Definition emean (x y : er) : er := emulR (/ 2) (eadd x y).
(** the choice between the solutions (297-311) *)
Definition pick_sol (x0 y0 : R) (pos : R * R) (l : list (er * er)) : res (option (R * R)) :=
  match l with
  | [] => Ok (Some pos)
  | [s] => Ok (at_sol x0 y0 s)
  | _ =>
    match filter (fun p => negb (is_nan (fst p) || is_nan (snd p))) l with
    | [] => Err IndexErr
    | [s] => Ok (at_sol x0 y0 s)
    | s :: t :: _ => if (er_eqb (fst s) (fst t) && er_eqb (snd s) (snd t))%bool then Ok (at_sol x0 y0 s)
                     else Ok (at_sol x0 y0 (emean (fst s) (fst t), emean (snd s) (snd t)))
    end
  end.
(** get_cp_position_in_cell (224-311); dx and dy are the first steps of the axes.  Simplified: a position below the axes, for which the index
    is -1, is put in the first cell; the positions given to this function are above the first values of the axes *)
Definition in_cell (f : vf) (pos : R * R) : res (option (R * R)) :=
  match first_above (fst pos) (fax f) 0 (cols f), first_above (snd pos) (fay f) 0 (rows f) with
  | Some kx, Some ky =>
    let ix := pred kx in let iy := pred ky in
    let c := cell_of f iy ix in
    let dx := fax f 1 - fax f 0 in let dy := fay f 1 - fay f 0 in
    if any_corner (fun a b => fmask f (iy + a)%nat (ix + b)%nat) then Ok (Some pos)
    else match null_sum c with
      | [(a, b)] => Ok (Some (fax f (ix + a), fay f (iy + b)))
      | _ :: _ :: _ => Ok (Some pos)
      | [] =>
        if (any_corner (fun a b => is_zero (fvx c a b)) || any_corner (fun a b => is_zero (fvy c a b)))%bool then Ok None
        else pick_sol (fax f ix) (fay f iy) pos (inside_sols c dx dy)
      end
  | _, _ => Err IndexErr
  end.
(** the whole list; the points with a NaN are removed (322-326).  Pool.map_async gives the results in the same order *)
Fixpoint cp_moved (f : vf) (l : list ((R * R) * nat)) : res (list ((R * R) * nat)) :=
  match l with
  | [] => Ok []
  | (p, t) :: r => let* q := in_cell f p in let* s := cp_moved f r in Ok (match q with Some x => (x, t) :: s | None => s end)
  end.
Definition cp_positions (eig : R -> R -> R -> R -> (R * R) * (R * R)) (f : vf) : res (list ((R * R) * nat)) := cp_moved f (cp_cells eig f).
