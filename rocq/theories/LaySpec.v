(** * LaySpec: what a user expects of the theoretical boundary layers. *)
From Coq Require Import Reals List Bool ZArith Lra.
From Verif Require Import Res LayModel.
Import ListNotations.
#[local] Open Scope R_scope.

Definition physical (b : blasius) : Prop := 0 < Uinf b /\ 0 < nu b.
(** the laminar layer of Blasius at x >= 0: the thicknesses are the roots of c^2 nu x / U, friction and stress follow *)
Definition blasius_law (b : blasius) (coef x : R) (l : layer) : Prop :=
  0 <= delta l /\ delta l ^ 2 * Uinf b = coef ^ 2 * nu b * x /\
  0 <= delta2 l /\ delta2 l ^ 2 * Uinf b = 0.664 ^ 2 * nu b * x /\
  delta_star l = 2.59 * delta2 l /\ shape l = 2.59 /\ Rex l = Uinf b * x / nu b /\
  (0 < x -> 0 < Cf l /\ Cf l ^ 2 * Rex l = 0.664 ^ 2) /\
  tau_w l = Cf l * (1 / 2 * rho b * Uinf b ^ 2).
(** the flow is laminar at x *)
Definition laminar (b : blasius) (x : R) : Prop := Uinf b * x / nu b < 500000.
(** the solution of Blasius' equation, F''' = - 1/2 F F'', from F = F' = 0 and F'' = 0.332 at the wall.  Only what happens at the wall is
    required of it. *)
Definition from_wall (Phi : R -> state) : Prop :=
  Phi 0 = (0, 0, 0.332) /\ derivable_pt_lim (fun t => snd (fst (Phi t))) 0 (snd (Phi 0)).
(** scipy's odeint, exactly integrated: the first value asked is where the initial condition holds, and the equation does not depend on theta.
    [Phi] is the answer as soon as the function given is the right-hand side of the equation of Blasius *)
Definition blasius_equation (d : state -> state) : Prop := forall a b c, d (a, b, c) = (b, c, - (1 / 2) * a * c).
Definition odeint_ok (odeint : (state -> state) -> state -> list R -> list state) (Phi : R -> state) : Prop :=
  forall d t0 r, blasius_equation d -> odeint d (0, 0, 0.332) (t0 :: r) = map (fun t => Phi (t - t0)) (t0 :: r).
(** scipy's quad, exactly integrated: F b - F a for any primitive F *)
Definition quad_exact (quad : (R -> R) -> R -> R -> R) (f : R -> R) (a b : R) : Prop :=
  forall F, (forall t, a <= t <= b -> derivable_pt_lim F t (f t)) -> quad f a b = F b - F a.
(** positions with the constant step h *)
Definition stepped (h : R) (xs : list R) : Prop := forall i, lt (S i) (length xs) -> nth (S i) xs 0 - nth i xs 0 = h.
