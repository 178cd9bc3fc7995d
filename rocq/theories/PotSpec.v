(** * PotSpec: what the claims on potential flows speak of. *)
From Coq Require Import Reals List Bool.
From Verif Require Import Res PotModel.
Import ListNotations.
#[local] Open Scope R_scope.

(** ** what is asked from scipy and numpy *)
Definition linear_quad (quad : (R -> R) -> R -> R -> R) : Prop :=
  (forall f g u v a b, quad (fun s => u * f s + v * g s) a b = u * quad f a b + v * quad g a b)
  /\ (forall f g a b, (forall s, f s = g s) -> quad f a b = quad g a b).
(** the sum of the products of a row by the unknowns *)
Fixpoint times (row s : list R) : R := match row, s with x :: r, y :: t => x * y + times r t | _, _ => 0 end.
Definition is_solution (A : list (list R)) (b s : list R) : Prop := length s = length b /\ Forall2 (fun row c => times row s = c) A b.
Definition exact_solve (solve : list (list R) -> list R -> res (list R)) : Prop := forall A b s, solve A b = Ok s -> is_solution A b s.

(** the unknowns are determined *)
Definition determined (A : list (list R)) : Prop :=
  forall s t, length s = length A -> length t = length A -> Forall (fun row => times row s = times row t) A -> s = t.

(** ** points and panels *)
Definition dist2 (a b : pt) : R := (fst a - fst b) ^ 2 + (snd a - snd b) ^ 2.
(** the point at the part [t] of the way from a to b *)
Definition along (a b : pt) (t : R) : pt := (fst a + t * (fst b - fst a), snd a + t * (snd b - snd a)).
(** twice the area of the triangle a b (x, y) *)
Definition area2 (a b : pt) (x y : R) : R := (fst b - fst a) * (y - snd a) - (snd b - snd a) * (x - fst a).
(** the unit vector on the right of the way from a to b *)
Definition normal_of (a b : pt) : R * R := ((snd b - snd a) / sqrt (dist2 a b), (fst a - fst b) / sqrt (dist2 a b)).
Definition scalar (u v : R * R) : R := fst u * fst v + snd u * snd v.

(** the velocity at the centre of a panel: the free stream, the other panels, and half the strength of the panel along its normal *)
Definition centre_velocity (quad : (R -> R) -> R -> R -> R) (u alpha : R) (others : list panel) (q : panel) : R * R :=
  (u * cos alpha + / 2 / PI * sum_list (map (fun p => p_sigma p * integral quad (p_xc q) (p_yc q) p 1 0) others) + p_sigma q / 2 * cos (p_beta q),
   u * sin alpha + / 2 / PI * sum_list (map (fun p => p_sigma p * integral quad (p_xc q) (p_yc q) p 0 1) others) + p_sigma q / 2 * sin (p_beta q)).

(** the velocity at (x, y) due to sources of unit strength all along a panel: each of them acts along the way from it, as the inverse of the distance *)
Definition line_of_sources (quad : (R -> R) -> R -> R -> R) (p : panel) (x y : R) : R * R :=
  let q s := along (p_a p) (p_b p) (s / sqrt (dist2 (p_a p) (p_b p))) in
  (/ (2 * PI) * quad (fun s => (x - fst (q s)) / dist2 (x, y) (q s)) 0 (sqrt (dist2 (p_a p) (p_b p))),
   / (2 * PI) * quad (fun s => (y - snd (q s)) / dist2 (x, y) (q s)) 0 (sqrt (dist2 (p_a p) (p_b p)))).

(** ** paths *)
Fixpoint path_length (l : list pt) : R := match l with a :: ((b :: _) as r) => sqrt (dist2 a b) + path_length r | _ => 0 end.
Definition first_point (l : list pt) : option pt := match l with [] => None | p :: _ => Some p end.
Definition last_point (l : list pt) : option pt := match l with [] => None | p :: r => Some (last (p :: r) p) end.
Definition closed (l : list pt) : Prop := first_point l = last_point l.
(** [m] is [l] with each segment cut in equal parts *)
Inductive cut_in_parts : list pt -> list pt -> Prop :=
| cut_end p : cut_in_parts [p] [p]
| cut_seg a b l m n : (1 <= n)%nat -> cut_in_parts (b :: l) m -> cut_in_parts (a :: b :: l) (map (fun k => along a b (INR k / INR n)) (seq 0 n) ++ m).
(** the ends of the panels of an object *)
Fixpoint ends_of (l : list pt) : list (pt * pt) := match l with a :: ((b :: _) as r) => (a, b) :: ends_of r | _ => [] end.

Definition no_empty_segment (l : list pt) : Prop := Forall (fun e => fst e <> snd e) (ends_of l).

(** ** histories *)
Definition is_add (e : event) : bool := match e with Add _ _ _ _ => true | _ => false end.
Definition no_inverse (e : event) : bool := match e with Inverse _ => false | _ => true end.
Definition after rnd quad solve (u alpha : R) (h : list event) : system := fst (plays rnd quad solve (new_system u alpha) h).
(** what is returned for a point after a history *)
Definition velocity_after rnd quad solve (u alpha : R) (h : list event) (x y : R) : option (res (R * R)) :=
  snd (play rnd quad solve (after rnd quad solve u alpha h) (Velocity x y)).

(** ** a solver and a quadrature for the examples: the middle of the interval; the first of some multiples of the right-hand side that is a solution *)
Definition middle (f : R -> R) (a b : R) : R := (b - a) * f ((a + b) / 2).
Fixpoint solvesb (A : list (list R)) (b s : list R) : bool :=
  match A, b with
  | [], [] => true
  | row :: A', c :: b' => (if Req_EM_T (times row s) c then true else false) && solvesb A' b' s
  | _, _ => false
  end.
Fixpoint multiple (ms : list R) (A : list (list R)) (b : list R) : res (list R) :=
  match ms with [] => Err GenericErr | m :: r => let s := map (Rmult m) b in if solvesb A b s then Ok s else multiple r A b end.
Definition square : list pt := [(0, 0); (1, 0); (1, 1); (0, 1)].
