(** * Series2Spec: the vocabulary of C142 to C149, on the cells of the frames of a series. *)
From Verif Require Import Num Res ListLib SortLib Arr FieldModel ScalarFieldModel VectorFieldModel FieldSpec ProfileModel ProfileSpec Prof2Spec TemporalModel TemporalSpec.

(** the values of a pixel in the successive frames, none of them masked *)
Definition pixel_values (t : tfield sfield) (i j : nat) (l : list num) : Prop :=
  Forall2 (fun f v => at_ (msk f) i j = false /\ at_ (values f) i j = Some v) (tff t) l.
(** a choice of values that keeps all that lies between two values it keeps *)
Definition convex (keep : num -> bool) : Prop := forall a v b, keep a = true -> keep b = true -> (a <= v <= b)%num -> keep v = true.
(** the number of frames showing the value c *)
Definition times_shown (c : num) (l : list num) : nat := length (filter (fun v => qeqb v c) l).
(** all the values are at the same distance of their average *)
Definition equidistant (l : list num) : Prop := forall v, In v l -> ((v - average l) * (v - average l) = variance l)%num.

(** every frame masks the cell *)
Definition always_masked {F} (ops : fops F) (t : tfield F) (i j : nat) : Prop := forall f, In f (tff t) -> at_ (o_mask ops f) i j = true.
(** [f'] is the part of [f] made of n columns from the column x0 and m lines from the line y0 *)
Definition sf_part (x0 y0 n m : nat) (f f' : sfield) : Prop :=
  ax (sg f') = firstn n (skipn x0 (ax (sg f))) /\ ay (sg f') = firstn m (skipn y0 (ay (sg f))) /\ ux (sg f') = ux (sg f) /\ uy (sg f') = uy (sg f) /\ uv f' = uv f /\ sf_wf f' /\
  forall i j, i < n -> j < m -> at_ (values f') i j = at_ (values f) (x0 + i) (y0 + j) /\ at_ (msk f') i j = at_ (msk f) (x0 + i) (y0 + j).
Definition vf_part (x0 y0 n m : nat) (f f' : vfield) : Prop :=
  ax (vg f') = firstn n (skipn x0 (ax (vg f))) /\ ay (vg f') = firstn m (skipn y0 (ay (vg f))) /\ ux (vg f') = ux (vg f) /\ uy (vg f') = uy (vg f) /\ vuv f' = vuv f /\ vf_wf f' /\
  forall i j, i < n -> j < m -> at_ (cx f') i j = at_ (cx f) (x0 + i) (y0 + j) /\ at_ (cy f') i j = at_ (cy f) (x0 + i) (y0 + j) /\
    at_ (vmsk f') i j = at_ (vmsk f) (x0 + i) (y0 + j).
(** the part of a series: the same times, and the same part of each frame, inside of the grid *)
Definition series_part {F} (part : nat -> nat -> nat -> nat -> F -> F -> Prop) (x0 y0 n m : nat) (t t' : tfield F) : Prop :=
  x0 + n <= length (ax (tfg t)) /\ y0 + m <= length (ay (tfg t)) /\ tft t' = tft t /\ tfu t' = tfu t /\
  ax (tfg t') = firstn n (skipn x0 (ax (tfg t))) /\ ay (tfg t') = firstn m (skipn y0 (ay (tfg t))) /\
  Forall2 (part x0 y0 n m) (tff t) (tff t').
(** the values of the cells that are not masked *)
Definition shown_values (f : sfield) : list num :=
  flat_map (fun c => if at_ (msk f) (fst c) (snd c) then [] else match at_ (values f) (fst c) (snd c) with Some v => [v] | None => [] end)
           (list_prod (seq 0 (length (ax (sg f)))) (seq 0 (length (ay (sg f))))).
(** ** weird fields *)
(** the norms of the vectors that are not masked; [root] is the square root *)
Definition norms (root : num -> num) (f : vfield) : list num :=
  flat_map (fun c => if at_ (vmsk f) (fst c) (snd c) then []
                     else match at_ (cx f) (fst c) (snd c), at_ (cy f) (fst c) (snd c) with Some a, Some b => [root (a * a + b * b)%num] | _, _ => [] end)
           (list_prod (seq 0 (length (ax (vg f)))) (seq 0 (length (ay (vg f))))).
Definition norm_sums (root : num -> num) (t : tfield vfield) : list num := map (fun f => Num.qsum (norms root f)) (tff t).
(** the sum of the norms of the frame k is further from the average than coef standard deviations *)
Definition weird (root : num -> num) (coef : num) (t : tfield vfield) (k : nat) : Prop := marginal coef (norm_sums root t) (nth_error (norm_sums root t) k).
(** e is the smallest distance at which the frames of both sides are kept, and these frames exist *)
Definition surrounded (odd : nat -> Prop) (len k e : nat) : Prop :=
  0 < e <= k /\ k + e < len /\ ~ odd (k + e) /\ ~ odd (k - e) /\ forall x, 0 < x < e -> odd (k + x) \/ odd (k - x).
(** f is half of the sum of a and b, in base units; masked where one of them is *)
Definition middle (a b f : vfield) : Prop :=
  vg f = vg a /\ dim (vuv f) = dim (vuv a) /\
  forall i j, i < length (ax (vg a)) -> j < length (ay (vg a)) ->
    at_ (vmsk f) i j = orb (at_ (vmsk a) i j) (at_ (vmsk b) i j) /\
    (at_ (vmsk f) i j = false -> forall ax1 ay1 bx by1, at_ (cx a) i j = Some ax1 -> at_ (cy a) i j = Some ay1 -> at_ (cx b) i j = Some bx -> at_ (cy b) i j = Some by1 ->
       exists vx vy, at_ (cx f) i j = Some vx /\ at_ (cy f) i j = Some vy /\
         (2 * (vx * sc (vuv f)) = ax1 * sc (vuv a) + bx * sc (vuv b))%num /\ (2 * (vy * sc (vuv f)) = ay1 * sc (vuv a) + by1 * sc (vuv b))%num).
(** ** filling in time *)
(** the times and values of the frames that do not mask the cell *)
Definition cell_points (comp : vfield -> arr onum) (t : tfield vfield) (i j : nat) : list (num * num) :=
  flat_map (fun s => if at_ (vmsk (snd s)) i j then [] else match at_ (comp (snd s)) i j with Some v => [(fst s, v)] | None => [] end) (frames t).
Definition cell_kept (f f' : vfield) (i j : nat) : Prop := at_ (cx f') i j = at_ (cx f) i j /\ at_ (cy f') i j = at_ (cy f) i j /\ at_ (vmsk f') i j = at_ (vmsk f) i j.
(** the time lies between two of the points *)
Definition between (x : num) (l : list (num * num)) : Prop := exists a b, In a l /\ In b l /\ (fst a <= x <= fst b)%num.
(** the cell (i, j) of the frame f at the time x, before and after filling *)
Definition filled_in_time (t : tfield vfield) (x : num) (i j : nat) (f f' : vfield) : Prop :=
  if at_ (vmsk f) i j then
    (3 <= length (cell_points cx t i j) -> between x (cell_points cx t i j) ->
       at_ (vmsk f') i j = false /\ exists vx vy, at_ (cx f') i j = Some vx /\ at_ (cy f') i j = Some vy /\
         on_polyline (cell_points cx t i j) x vx /\ on_polyline (cell_points cy t i j) x vy) /\
    (length (cell_points cx t i j) < 3 \/ ~ between x (cell_points cx t i j) -> cell_kept f f' i j)
  else cell_kept f f' i j.
