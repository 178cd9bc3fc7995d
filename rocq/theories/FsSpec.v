(** * FsSpec: what a user expects of the layer of Falkner and Skan. *)
From Coq Require Import Reals List Bool ZArith Lra.
From Verif Require Import Res LayModel FsModel.
Import ListNotations.
#[local] Open Scope R_scope.

Definition fs_physical (f : fskan) : Prop := 0 < f_nu f /\ 0 < f_c0 f /\ 0 < f_L f /\ -1 < f_m f.
(** the values of f'(10) at the two ends are on both sides of 1 *)
Definition straddles (b : interval) : Prop := (a1 b - 1) * (b1 b - 1) < 0.
Definition inside (lo hi y : R) : Prop := lo <= y <= hi.
(** an interval whose ends have been integrated *)
Definition tried (shoot : R -> option R) (b : interval) : Prop := shoot (a3 b) = Some (a1 b) /\ shoot (b3 b) = Some (b1 b).
(** numpy's argsort gives the indices, each once *)
Definition sorts (asort : list R -> list nat) : Prop := forall l i, In i (asort l) <-> lt i (length l).
(** an exact odeint for the equation of Falkner and Skan, F''' = - (m + 1)/2 F F'' - m (1 - F'^2), from F = F' = 0 and F'' = y3: [Phi] is the
    answer as soon as the function given is the right-hand side of this equation *)
Definition falkner_skan (m : R) (d : state -> state) : Prop := forall a b c, d (a, b, c) = (b, c, - (m + 1) / 2 * a * c - m * (1 - b ^ 2)).
Definition fs_odeint_ok (odeint : (state -> state) -> state -> list R -> list state) (f : fskan) (y3 : R) (Phi : R -> state) : Prop :=
  forall d t0 r, falkner_skan (f_m f) d -> odeint d (0, 0, y3) (t0 :: r) = map (fun t => Phi (t - t0)) (t0 :: r).
(** F, G, H are a solution of the equation: F' = G, G' = H and H' given by this equation *)
Definition fs_solution (f : fskan) (F G H : R -> R) : Prop :=
  forall t, derivable_pt_lim F t (G t) /\ derivable_pt_lim G t (H t) /\
    derivable_pt_lim H t (- (f_m f + 1) / 2 * F t * H t - f_m f * (1 - G t ^ 2)).
(** The steady boundary layer equations of Prandtl at (x, y): mass and momentum, [ue] being the external velocity and [ue'] its slope *)
Definition prandtl (nu ue ue' : R) (u v : R -> R -> R) (x y : R) : Prop :=
  exists ux uy uyy vy (uy_ : R -> R),
    derivable_pt_lim (fun x => u x y) x ux /\ (forall y, derivable_pt_lim (fun y => u x y) y (uy_ y)) /\ uy_ y = uy /\ derivable_pt_lim uy_ y uyy /\
    derivable_pt_lim (fun y => v x y) y vy /\
    ux + vy = 0 /\ u x y * ux + v x y * uy = ue * ue' + nu * uyy.
