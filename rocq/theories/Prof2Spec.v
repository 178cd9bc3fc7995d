(** * Prof2Spec: the vocabulary of C132 to C141, on the samples (x, y, mask) of a profile. *)
From Verif Require Import Num Res ListLib SortLib Arr FieldModel ScalarFieldModel FieldSpec ProfileModel ProfileSpec Prof2Model.

(** the line between two consecutive samples, both unmasked, takes the value v at x *)
Definition passes (l : list sample) (v x : num) : Prop :=
  exists A x0 a x1 b B, l = A ++ (x0, Some a, false) :: (x1, Some b, false) :: B /\ (x0 <= x <= x1)%num /\ on_line x0 x1 x a b v.
(** the sample number d of the profile, d being a number with decimals, is at x *)
Definition index_of (xs : list num) (x d : num) : Prop :=
  exists i, S i < length xs /\ (qn i <= d <= qn (S i))%num /\ on_line (qn i) (qn (S i)) d (nths xs i) (nths xs (S i)) x.
(** the values that are not masked *)
Fixpoint valid_values (l : list sample) : list num :=
  match l with (_, Some v, false) :: r => v :: valid_values r | _ :: r => valid_values r | [] => [] end.
Definition average (l : list num) : num := (Num.qsum l / qn (length l))%num.
Definition variance (l : list num) : num := average (map (fun v => (v - average l) * (v - average l))%num l).
(** the value is further from the average than fact standard deviations *)
Definition marginal (fact : num) (l : list num) (y : onum) : Prop :=
  match y with Some v => (fact * fact * variance l < (v - average l) * (v - average l))%num | None => False end.
(** the point (x, y) is on the line joining two consecutive points of the list *)
Definition on_polyline (l : list (num * num)) (x y : num) : Prop :=
  exists A x0 y0 x1 y1 B, l = A ++ (x0, y0) :: (x1, y1) :: B /\ (x0 <= x <= x1)%num /\ interpolates x0 y0 x1 y1 x y.
(** the points that are not masked *)
Fixpoint valid_points (l : list sample) : list (num * num) :=
  match l with (x, Some v, false) :: r => (x, v) :: valid_points r | _ :: r => valid_points r | [] => [] end.
(** n intervals of the same length from a to b *)
Definition regular_axis (l : list num) (a b : num) (n : nat) : Prop :=
  length l = S n /\ forall i, i <= n -> (nths l i * qn n = a * qn (n - i) + b * qn i)%num.
(** the samples are at a regular distance h *)
Definition spaced (xs : list num) (h : num) : Prop := forall i, S i < length xs -> (nths xs (S i) - nths xs i)%num = h.
(** the value of the profile at x, null where there is no sample *)
Definition at_x (l : list sample) (x v : num) : Prop :=
  (exists t, In t l /\ sx t = x /\ sy t = Some v) \/ ((forall t, In t l -> sx t <> x) /\ v = 0%num).
(** q is p moved by d: q(x) = p(x - d) for every x *)
Definition moved (p q : list sample) (d : num) : Prop := forall x v, at_x q x v <-> at_x p (x - d)%num v.
Definition nothing_hidden (p : profile) : Prop := forall t, In t (samples p) -> smask t = false /\ sy t <> None.
(** the samples whose abscissa is rounded to x *)
Definition group (rnd : num -> num) (x : num) (l : list sample) : list sample := filter (fun t => qeqb (rnd (sx t)) x) l.
Definition least (l : list num) (v : num) : Prop := In v l /\ forall w, In w l -> (v <= w)%num.
Definition greatest (l : list num) (v : num) : Prop := In v l /\ forall w, In w l -> (w <= v)%num.
(** what becomes of the values of samples that are joined *)
Definition merged (m : dmethod) (l : list num) (v : num) : Prop :=
  match m with DAverage => v = average l | DMin => least l v | DMax => greatest l v | DOther => False end.
(** the steps of the axis differ by less than a millionth of one of them *)
Definition even_steps (xs : list num) : Prop :=
  forall i, S i < length xs -> exists j, S j < length xs /\
    (qabs ((nths xs (S i) - nths xs i) - (nths xs 1 - nths xs 0)) < qq 1 1000000 * (nths xs (S j) - nths xs j))%num.
(** the sum of l over the whole numbers from a to b - 1 *)
Definition sum_between (a b : nat) (f : nat -> num) : num := Num.qsum (map f (seq a (b - a))).
(** the values of a profile without masked point *)
Definition holds (p : profile) (ys : list num) : Prop := length ys = length (px p) /\ samples p = map (fun i => (nths (px p) i, Some (nths ys i), false)) (seq 0 (length (px p))).
(** the terms of the product of two sequences *)
Definition product_term (a b : list num) (k : nat) : num := sum_between 0 (S k) (fun i => nths a i * nths b (k - i))%num.
