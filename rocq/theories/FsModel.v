(** * FsModel: the boundary layer of Falkner and Skan (boundary_layer/boundary_layer.py 301-513), over the real numbers.
    Parameters: scipy's integrations.  Verbose output is left out, except where it changes what is computed. *)
From Coq Require Import Reals List Bool ZArith Lra.
From Verif Require Import Res LayModel.
Import ListNotations.
#[local] Open Scope R_scope.

(** the attributes (303-319); beta is not used *)
Record fskan := mkfs { f_nu : R; f_m : R; f_c0 : R; f_L : R }.
(** get_u_e (322-326), for x/L > 0 *)
Definition get_u_e (f : fskan) (x : R) : R := f_c0 f * Rpower (x / f_L f) (f_m f).
(** get_mu (328-333) *)
Definition get_mu (f : fskan) (x y : R) : R :=
  y * pw (f_c0 f * (f_m f + 1) / (2 * f_nu f * f_L f)) 0.5 * Rpower (x / f_L f) ((f_m f - 1) / 2).
(** get_y (335-341): the second return statement is never reached *)
Definition get_y (f : fskan) (x mu : R) : R := mu * pw (f_nu f * x / get_u_e f x) 0.5.

(** ** get_f_function (343-485): the first guesses (391-424).
    A guess is a value of f''(0), with f'(10) and f''(10), or None when the integration warns. *)
Definition guess : Type := (R * R * R)%type.
Definition g_y3 (g : guess) : R := fst (fst g).
Definition g_y1 (g : guess) : R := snd (fst g).
Definition g_y2 (g : guess) : R := snd g.
Fixpoint known (l : list (R * option (R * R))) : list guess :=
  match l with
  | [] => []
  | (y3, Some (y1, y2)) :: r => (y3, y1, y2) :: known r
  | (_, None) :: r => known r
  end.
(** numpy.where(v[:-1]*v[1:] < 0)[0] (411-413) *)
Fixpoint changes (i : nat) (v : list R) : list nat :=
  match v with
  | a :: ((c :: _) as r) => if ltb (a * c) 0 then i :: changes (S i) r else changes (S i) r
  | _ => []
  end.
(** the comprehension of 414-416: ind2[i] raises IndexError when ind2 is shorter than ind1 *)
Fixpoint same_places (l1 l2 : list nat) : res (list nat) :=
  match l1, l2 with
  | [], _ => Ok []
  | _ :: _, [] => Err IndexErr
  | a :: r1, c :: r2 => let* r := same_places r1 r2 in Ok (if Nat.eqb a c then a :: r else r)
  end.
Fixpoint rmin (a : R) (l : list R) : R := match l with [] => a | x :: r => rmin (Rmin a x) r end.
Fixpoint rmax (a : R) (l : list R) : R := match l with [] => a | x :: r => rmax (Rmax a x) r end.
(** the two ends, each a value of f''(0) and of f'(10): interval_Y3 and interval_Y1p *)
Record interval := mkint { a3 : R; b3 : R; a1 : R; b1 : R }.
Definition between (g h : guess) : interval := mkint (g_y3 g) (g_y3 h) (g_y1 g) (g_y1 h).
(** [asort] is numpy's argsort (409) *)
Definition first_interval (asort : list R -> list nat) (guesses : list (R * option (R * R))) : res interval :=
  let l := known guesses in
  let resid := map (fun g => g_y1 g - 1) l in
  match resid with
  | [] => Err ValueErr                                        (* numpy.min of an empty array (410) *)
  | r0 :: rs =>
    let ind_min := asort (map Rabs resid) in
    if ltb (rmin r0 rs * rmax r0 rs) 0 then
      let* p := same_places (changes 0 resid) (changes 0 (map g_y2 l)) in
      match p with
      | [] => Err IndexErr
      | ind :: _ => match nth_error l ind, nth_error l (S ind) with Some g, Some h => Ok (between g h) | _, _ => Err IndexErr end
      end
    else
      match ind_min with
      | i0 :: rest =>
        raise GenericErr when (Nat.eqb i0 0 || Nat.eqb i0 (length l - 1))%bool ;;
        match rest with
        | i1 :: _ => match nth_error l i0, nth_error l i1 with Some g, Some h => Ok (between g h) | _, _ => Err IndexErr end
        | [] => Err IndexErr
        end
      | [] => Err IndexErr
      end
  end.
(** ** The shooting method (426-477).  [shoot] gives f'(10) for a value of f''(0), or None when the integration warns: warnings are turned
    into errors (369), among which divisions by zero. *)
Section Shooting.
Context (shoot : R -> option R) (relerr : R) (max_it : nat) (verbose : bool).
(** 432-435 *)
Definition next_mid (b : interval) : res R :=
  let d := Rabs (1 - b1 b) + Rabs (1 - a1 b) in
  raise GenericErr when (eqb d 0) ;;
  Ok ((a3 b * Rabs (1 - b1 b) + b3 b * Rabs (1 - a1 b)) / d).
(** 450-455 *)
Definition narrowed (b : interval) (mid y : R) : interval :=
  if ltb ((a1 b - 1) * (y - 1)) 0 then mkint (a3 b) mid (a1 b) y else mkint mid (b3 b) y (b1 b).
(** One turn (431-470): the value kept and the number of integrations at the end, or the next state.  The second break is under
    'if verbose' (464-467). *)
Fixpoint shooting (fuel : nat) (b : interval) (mid : R) (it shots : nat) : res (R * nat) :=
  match fuel with
  | O => Err OutOfFuel
  | S k =>
    let* nm := next_mid b in
    if ltb (Rabs (nm - mid)) 1e-10 then Ok (mid, shots)
    else
      match shoot nm with
      | None => Err GenericErr
      | Some y =>
        raise GenericErr when (eqb ((y + 1) / 2) 0) ;;
        let err := Rabs ((y - 1) / ((y + 1) / 2)) in
        if Nat.ltb max_it it then Ok (nm, S shots)
        else if (ltb err relerr && verbose)%bool then Ok (nm, S shots)
        else shooting k (narrowed b nm y) nm (S it) (S shots)
      end
  end.
Definition shoot_y3 (b : interval) : res (R * nat) := shooting (max_it + 2) b 1e30 0 0.
End Shooting.

(** ** get_profile (487-513): [sol] is the second component of the solution at the values of mu (371, 481) *)
Definition mus : list R := map (fun i => 10 * INR i / 99) (seq 0 100).
Definition fs_deriv (f : fskan) (Y : state) : state :=
  let '(a, b, c) := Y in (b, c, - (f_m f + 1) / 2 * a * c - f_m f * (1 - b ^ 2)).
Definition fs_profile (odeint : (state -> state) -> state -> list R -> list state) (f : fskan) (y3 x : R) : list (R * R) :=
  let sol := odeint (fs_deriv f) (0, 0, y3) mus in
  combine (map (get_y f x) mus) (map (fun s : state => snd (fst s) * get_u_e f x) sol).
