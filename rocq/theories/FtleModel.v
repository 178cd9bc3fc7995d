(** * FtleModel: displacement of particles and Lyapunov exponents (vortex_criterions/FTLE/ftle.py 29-275), over the real numbers.
    Parameter: the interpolated velocity ([vel], Vx_tor and Vy_tor, 44-54). *)
From Coq Require Import Reals List Bool ZArith.
From Verif Require Import Res.
Import ListNotations.
#[local] Open Scope R_scope.

Definition vec : Type := (R * R)%type.
Definition vadd (a b : vec) : vec := (fst a + fst b, snd a + snd b).
Definition vsub (a b : vec) : vec := (fst a - fst b, snd a - snd b).
Definition vscale (c : R) (a : vec) : vec := (c * fst a, c * snd a).
Definition vnorm (a : vec) : R := sqrt (fst a ^ 2 + snd a ^ 2).
(** axe_x[0], axe_x[-1], axe_y[0], axe_y[-1] and the first step of axe_x (self.dx, 40) *)
Record zone : Type := mkzone { x0 : R; x1 : R; y0 : R; y1 : R; hx : R }.
(** the tests of the loop (169-174) *)
Definition beyond (z : zone) (p : vec) : bool :=
  if Rlt_dec (fst p) (x0 z) then true else if Rlt_dec (x1 z) (fst p) then true
  else if Rlt_dec (snd p) (y0 z) then true else if Rlt_dec (y1 z) (snd p) then true else false.

(** ** get_pts_displacement (87-182) *)
(** a time step as a float: numpy gives infinity for x/0 and NaN for 0/0, without raising *)
Inductive step : Type := Num (h : R) | Inf | Nan.

Section Move.
Variable z : zone.
Variable vel : vec -> vec.
Variable reverse : bool.
(** fun (128-135) *)
Definition speed (p : vec) : vec := if reverse then vscale (-1) (vel p) else vel p.
(** rkf45 (138-158): the six increments *)
Definition k1 (p : vec) (h : R) : vec := vscale h (speed p).
Definition k2 p h : vec := vscale h (speed (vadd p (vscale (/ 4) (k1 p h)))).
Definition k3 p h : vec := vscale h (speed (vadd (vadd p (vscale (3 / 32) (k1 p h))) (vscale (9 / 32) (k2 p h)))).
Definition k4 p h : vec := vscale h (speed (vadd (vsub (vadd p (vscale (1932 / 2197) (k1 p h))) (vscale (7200 / 2197) (k2 p h))) (vscale (7296 / 2197) (k3 p h)))).
Definition k5 p h : vec := vscale h (speed (vsub (vadd (vsub (vadd p (vscale (439 / 216) (k1 p h))) (vscale 8 (k2 p h))) (vscale (3680 / 513) (k3 p h))) (vscale (845 / 4104) (k4 p h)))).
Definition k6 p h : vec := vscale h (speed (vsub (vadd (vsub (vadd (vsub p (vscale (8 / 27) (k1 p h))) (vscale 2 (k2 p h))) (vscale (3544 / 2565) (k3 p h))) (vscale (1859 / 4104) (k4 p h))) (vscale (11 / 40) (k5 p h)))).
(** new_xy (148-149) and best_xy (150-151) *)
Definition new_xy p h : vec := vsub (vadd (vadd (vadd p (vscale (25 / 216) (k1 p h))) (vscale (1408 / 2565) (k3 p h))) (vscale (2197 / 4104) (k4 p h))) (vscale (/ 5) (k5 p h)).
Definition best_xy p h : vec := vadd (vsub (vadd (vadd (vadd p (vscale (16 / 135) (k1 p h))) (vscale (6656 / 12825) (k3 p h))) (vscale (28561 / 56430) (k4 p h))) (vscale (9 / 50) (k5 p h))) (vscale (2 / 55) (k6 p h)).
(** the next step (152-156): err is the quotient of [gap] and [move] *)
Definition gap p h : R := vnorm (vsub (best_xy p h) (new_xy p h)).
Definition move p h : R := vnorm (vsub (new_xy p h) p).
Definition next_step (rel_err dampl : R) (p : vec) (h : R) : step :=
  if Req_EM_T (move p h) 0
  then if Req_EM_T (gap p h) 0 then Nan                         (** err is NaN *)
       else Num (dampl * h)                                     (** err is infinite *)
  else if Req_EM_T (gap p h) 0                                  (** err is 0 *)
  then if Req_EM_T (rel_err * h) 0 then Nan else if Req_EM_T (1 - dampl) 0 then Nan (** 0 * inf *) else Inf
  else Num (dampl * h + (1 - dampl) * sqrt (sqrt (rel_err * h / (2 * (gap p h / move p h))))).
(** the time loop (163-181), [fuel] bounding the number of steps; [t_end] as in the code.  A NaN step gives NaN positions, which pass all the tests: the
    loop never ends (None), taking it that the interpolation of NaN does not raise. *)
Fixpoint time_loop (rel_err dampl dt : R) (fuel : nat) (p : vec) (t : R) (h : step) (t_end : bool) : option (vec * bool) :=
  if beyond z p then Some (p, true)
  else if t_end then Some (p, false)
  else
    match fuel with
    | O => None
    | S f =>
      match h with
      | Nan => None
      | Inf => time_loop rel_err dampl dt f (new_xy p (dt - t)) (t + (dt - t)) (next_step rel_err dampl p (dt - t)) true
      | Num h =>
        if Rlt_dec dt (t + h)
        then time_loop rel_err dampl dt f (new_xy p (dt - t)) (t + (dt - t)) (next_step rel_err dampl p (dt - t)) true
        else time_loop rel_err dampl dt f (new_xy p h) (t + h) (next_step rel_err dampl p h) false
      end
    end.
(** the first step (162) *)
Definition first_step (p : vec) : step := if Req_EM_T (vnorm (speed p)) 0 then if Req_EM_T (hx z) 0 then Nan else Inf else Num (hx z / vnorm (speed p)).
End Move.
(** the checks of the values (112-126) and the loop: None when more than [fuel] steps are needed *)
Definition displacement (z : zone) (vel : vec -> vec) (fuel : nat) (p : vec) (dt rel_err dampl : R) : res (option (vec * bool)) :=
  if Req_EM_T dt 0 then Err ValueErr
  else if Rle_dec rel_err 0 then Err ValueErr
  else if Rlt_dec dampl 0 then Err ValueErr else if Rlt_dec 1 dampl then Err ValueErr
  else let reverse := if Rlt_dec dt 0 then true else false in
       Ok (time_loop z vel reverse rel_err dampl (Rabs dt) fuel p 0 (first_step z vel reverse p) false).

(** ** generate_point_field (56-85) *)
(** numpy.arange: the points start + k*step below stop *)
Definition arange (start stop st : R) : list R := map (fun k => start + INR k * st) (seq 0 (Z.to_nat (- Int_part (- ((stop - start) / st))))).
Definition spacing (z : zone) (res_x res_y : R) : R * R := ((x1 z - x0 z) / (res_x + 1), (y1 z - y0 z) / (res_y + 1)).
Definition delta (d : R * R) : R := sqrt (fst d ^ 2 + snd d ^ 2) / 2.
Definition points (z : zone) (res_x res_y : R) : list R * list R :=
  let d := delta (spacing z res_x res_y) in (arange (x0 z + d / 2) (x1 z) d, arange (y0 z + d / 2) (y1 z) d).

(** ** get_FTLE (220-275) from the displaced points (None: masked) *)
Section Exponent.
(** the numbers of points and the displaced points *)
Variables n m : nat.
Variable moved : nat -> nat -> option vec.
(** numpy.gradient with the steps [dx] and [dy], for masked arrays: central differences inside, one-sided differences at the ends; None when one of the two points is masked *)
Definition diff (a b : option vec) (d : R) : option vec := match a, b with Some p, Some q => Some (vscale (/ d) (vsub q p)) | _, _ => None end.
Definition along_x (dx : R) (i j : nat) : option vec :=
  if Nat.eqb i 0 then diff (moved 0 j) (moved 1 j) dx
  else if Nat.eqb i (n - 1) then diff (moved (i - 1) j) (moved i j) dx
  else diff (moved (i - 1) j) (moved (i + 1) j) (2 * dx).
Definition along_y (dy : R) (i j : nat) : option vec :=
  if Nat.eqb j 0 then diff (moved i 0) (moved i 1) dy
  else if Nat.eqb j (m - 1) then diff (moved i (j - 1)) (moved i j) dy
  else diff (moved i (j - 1)) (moved i (j + 1)) (2 * dy).
(** the greatest eigenvalue of the symmetric matrix phi.phi^T (263-267), phi having the columns [a] and [b] *)
Definition top_eigenvalue (a b : vec) : R :=
  let p := fst a ^ 2 + fst b ^ 2 in let r := snd a ^ 2 + snd b ^ 2 in let q := fst a * snd a + fst b * snd b in
  (p + r + sqrt ((p - r) ^ 2 + 4 * q ^ 2)) / 2.
(** 254-269: None when masked *)
Definition exponent (dx dy dt : R) (i j : nat) : option R :=
  match along_x dx i j, along_y dy i j with Some a, Some b => Some (/ Rabs dt * ln (sqrt (top_eigenvalue a b))) | _, _ => None end.
End Exponent.
(** the displaced points (237-253): None when the particle has left the field; the outer None when a loop does not end *)
Definition moved_point (z : zone) (vel : vec -> vec) (fuel : nat) (dt rel_err dampl : R) (px py : R) : res (option (option vec)) :=
  let* r := displacement z vel fuel (px, py) dt rel_err dampl in
  Ok (match r with Some (p, out) => Some (if out then None else Some p) | None => None end).
(** the value at a point of the grid: numpy.gradient raises ValueError with less than two points along an axis.  [moved] stands for the displaced points of the grid *)
Definition get_ftle (z : zone) (res_x res_y : R) (moved : nat -> nat -> option vec) (dt : R) (i j : nat) : res (option R) :=
  let (dx, dy) := spacing z res_x res_y in
  let (xs, ys) := points z res_x res_y in
  if orb (Nat.ltb (length xs) 2) (Nat.ltb (length ys) 2) then Err ValueErr
  else Ok (exponent (length xs) (length ys) moved dx dy dt i j).
