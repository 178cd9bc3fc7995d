(** * VpropSpec: the vocabulary of C149 to C154. *)
From Verif Require Import Num Res ListLib SortLib Arr FieldModel ScalarFieldModel VectorFieldModel FieldSpec TemporalModel.

(** two cells share a side *)
Definition adjacent (c d : nat * nat) : Prop :=
  (fst c = fst d /\ (snd c = S (snd d) \/ snd d = S (snd c))) \/ (snd c = snd d /\ (fst c = S (fst d) \/ fst d = S (fst c))).
(** a path of adjacent cells of P joins two cells *)
Inductive joined (P : nat * nat -> Prop) (c : nat * nat) : nat * nat -> Prop :=
| joined_here : P c -> joined P c c
| joined_step d e : joined P c d -> adjacent d e -> P e -> joined P c e.
(** the list of the cells joined to c *)
Definition zone (P : nat * nat -> Prop) (c : nat * nat) (z : list (nat * nat)) : Prop := NoDup z /\ forall d, In d z <-> joined P c d.
(** the values of a field at its cells *)
Definition shows_at (f : sfield) (c : nat * nat) (v : num) : Prop :=
  fst c < length (ax (sg f)) /\ snd c < length (ay (sg f)) /\ at_ (msk f) (fst c) (snd c) = false /\ at_ (values f) (fst c) (snd c) = Some v.
(** cells where the value, or its absolute value, is above a threshold *)
Definition higher (f : sfield) (t : num) (c : nat * nat) : Prop := exists v, shows_at f c v /\ (t < v)%num.
Definition stronger (f : sfield) (t : num) (c : nat * nat) : Prop := exists v, shows_at f c v /\ (t < qabs v)%num.
(** the greatest absolute value shown, the greatest value in a list of cells *)
Definition strongest (f : sfield) (m : num) : Prop := (exists c v, shows_at f c v /\ qabs v = m) /\ forall c v, shows_at f c v -> (qabs v <= m)%num.
Definition highest (f : sfield) (z : list (nat * nat)) (m : num) : Prop := (exists c, In c z /\ shows_at f c m) /\ forall c v, In c z -> shows_at f c v -> (v <= m)%num.
(** the sums of g of the value over the cells of a list *)
Definition cell_sum (f : sfield) (g : nat * nat -> num -> num) (z : list (nat * nat)) : num :=
  Num.qsum (map (fun c => match at_ (values f) (fst c) (snd c) with Some v => g c v | None => 0%num end) z).
(** a regular axis *)
Definition regular_axis (l : list num) (h : num) : Prop := (0 < h)%num /\ 2 <= length l /\ forall i, i < length l -> nth i l (qz 0) = (nth 0 l (qz 0) + qn i * h)%num.
(** the same field with opposite values *)
Definition opposite (f g : sfield) : Prop :=
  sg g = sg f /\ uv g = uv f /\ forall i j, i < length (ax (sg f)) -> j < length (ay (sg f)) -> at_ (msk g) i j = at_ (msk f) i j /\
    at_ (values g) i j = match at_ (values f) i j with Some v => Some (- v)%num | None => None end.
(** the greatest absolute value in a list of cells *)
Definition peak (f : sfield) (z : list (nat * nat)) (m : num) : Prop :=
  (exists c v, In c z /\ shows_at f c v /\ qabs v = m) /\ forall c v, In c z -> shows_at f c v -> (qabs v <= m)%num.
(** weights of a rule of integration on n nodes of unit spacing: positive, and exact on constants *)
Definition weights (n : nat) (w : nat -> num) : Prop := (forall i, i < n -> (0 < w i)%num) /\ Num.qsum (map w (seq 0 n)) = qn (n - 1).
(** the velocity is zero at a cell *)
Definition still_at (f : vfield) (c : nat * nat) : Prop :=
  at_ (vmsk f) (fst c) (snd c) = false /\ at_ (cx f) (fst c) (snd c) = Some (qz 0) /\ at_ (cy f) (fst c) (snd c) = Some (qz 0).
(** the position of a trajectory at a time; the frame of a series at a time *)
Definition tracked (q : list (num * num)) (times : list num) (t : num) (pt : num * num) : Prop := exists k, nth_error times k = Some t /\ nth_error q k = Some pt.
Definition tracked_frame (t : tfield vfield) (x : num) (f : vfield) : Prop := exists k, nth_error (tft t) k = Some x /\ nth_error (tff t) k = Some f.
