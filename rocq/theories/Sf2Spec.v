(** * Sf2Spec: integrals, even spacing, zones and histogram of a scalar field for their user. *)
From Verif Require Import Num Res ListLib SortLib Arr FieldModel ScalarFieldModel FieldSpec PointsSpec ProfileModel ProfileSpec BlModel BlSpec VpropSpec Sf2Model.

(** ** line integrals *)
(** the value [y] at the [j]-th point of the line: on a line of the grid, interpolated between two, or averaged over several *)
Definition line_sample (f : sfield) (d : pdir) (p : line_pos) (j : nat) (y : onum) : Prop :=
  match p with
  | LAt v => (exists k, k < length (pos_axis f d) /\ v = nths (pos_axis f d) k /\ y = cell_value f d k j) \/
             (exists k, S k < length (pos_axis f d) /\ (nths (pos_axis f d) k < v < nths (pos_axis f d) (S k))%num /\ blends f d k v j y)
  | LOver a b => averages f d (fun k => (a <= nths (pos_axis f d) k <= b)%num) j y (isnan y)
  | LAll => averages f d (fun _ => True) j y (isnan y)
  end.
(** the values along the line *)
Definition along (f : sfield) (d : pdir) (p : line_pos) (ys : list onum) : Prop :=
  length ys = length (other_axis f d) /\ forall j, j < length (other_axis f d) -> line_sample f d p j (nth j ys None).
Definition position_ok (f : sfield) (d : pdir) (p : line_pos) : Prop :=
  match p with LAt v => (nths (pos_axis f d) 0 <= v <= last (pos_axis f d) (qz 0))%num | _ => True end.
(** at least one line of the grid is in the interval *)
Definition some_line (f : sfield) (d : pdir) (p : line_pos) : Prop :=
  match p with LOver a b => exists k, k < length (pos_axis f d) /\ (a <= nths (pos_axis f d) k <= b)%num | _ => True end.

(** ** surface integrals *)
(** nothing is masked in the rectangle *)
Definition all_shown (f : sfield) (ivx ivy : option (num * num)) : Prop :=
  forall x y v m, sf_shows f x y v m -> FieldSpec.in_iv ivx x -> FieldSpec.in_iv ivy y -> m = false /\ v <> None.
(** the first and last coordinates of the axis in an interval *)
Definition reaches (l : list num) (iv : option (num * num)) (a b : num) : Prop :=
  In a l /\ FieldSpec.in_iv iv a /\ In b l /\ FieldSpec.in_iv iv b /\ forall x, In x l -> FieldSpec.in_iv iv x -> (a <= x <= b)%num.
(** a regular axis, one-point axes included *)
Definition even_axis (l : list num) : Prop := exists h, (0 < h)%num /\ forall i, i < length l -> nths l i = (nths l 0 + qn i * h)%num.

(** ** even spacing *)
(** the smallest distance between successive points of the axis *)
Definition smallest_step (l : list num) (h : num) : Prop :=
  (exists i, S i < length l /\ h = (nths l (S i) - nths l i)%num) /\ forall i, S i < length l -> (h <= nths l (S i) - nths l i)%num.
(** n points at distance s, from the first to the last point of l *)
Definition spread_over (l l' : list num) (n : nat) (s : num) : Prop :=
  length l' = n /\ nths l' 0 = nths l 0 /\ last l' (qz 0) = last l (qz 0) /\ forall i, S i < n -> (nths l' (S i) - nths l' i)%num = s.

(** ** zones *)
(** the smallest and greatest values shown *)
Definition least_shown (f : sfield) (m : num) : Prop := (exists c, shows_at f c m) /\ forall c v, shows_at f c v -> (m <= v)%num.
Definition most_shown (f : sfield) (m : num) : Prop := (exists c, shows_at f c m) /\ forall c v, shows_at f c v -> (v <= m)%num.
(** the bounds widened by a hundred thousandth of their values *)
Definition widened (b0 b1 a b : num) : Prop :=
  a = (b0 - qabs b0 * qq 1 100000)%num /\ b = (b1 + qabs b1 * qq 1 100000)%num.
(** relative bounds are counted from the minimum, or from the maximum when the first one is the farther from 0 *)
Definition bounds_meant (f : sfield) (rel : bool) (b0 b1 lo hi : num) : Prop :=
  exists a b, widened b0 b1 a b /\ (a < b)%num /\
    if rel then exists mn mx, least_shown f mn /\ most_shown f mx /\ (0 <= a * b)%num /\
      ( ((qabs a <= qabs b)%num /\ lo = (mn + (mx - mn) * a)%num /\ hi = (mn + (mx - mn) * b)%num) \/
        ((qabs b < qabs a)%num /\ lo = (mx + (mx - mn) * a)%num /\ hi = (mx + (mx - mn) * b)%num) )
    else lo = a /\ hi = b.
(** the cells showing a value between the bounds *)
Definition between (f : sfield) (lo hi : num) (c : nat * nat) : Prop := exists v, shows_at f c v /\ (lo <= v <= hi)%num.
(** the zones of cells satisfying P: each is made of the cells joined to one of them, and each cell is in one zone only *)
Definition are_zones (P : nat * nat -> Prop) (zs : list (list (nat * nat))) : Prop :=
  (forall z, In z zs -> z <> [] /\ forall c, In c z -> zone P c z) /\
  (forall c, P c -> exists z, In z zs /\ In c z) /\
  (forall i j z z' c, nth_error zs i = Some z -> nth_error zs j = Some z' -> In c z -> In c z' -> i = j).
Definition cell_x (f : sfield) (c : nat * nat) : num := nths (ax (sg f)) (fst c).
Definition cell_y (f : sfield) (c : nat * nat) : num := nths (ay (sg f)) (snd c).
(** the point given for a zone *)
Definition point_of (f : sfield) (k : zkind) (lo hi : num) (z : list (nat * nat)) (p : num * num) : Prop :=
  match k with
  | ZCenter => (fst p * qn (length z) = total (map (cell_x f) z) /\ snd p * qn (length z) = total (map (cell_y f) z))%num
  | ZPonderated => (fst p * cell_sum f (fun _ v => qabs v) z = cell_sum f (fun c v => qabs v * cell_x f c) z /\
                    snd p * cell_sum f (fun _ v => qabs v) z = cell_sum f (fun c v => qabs v * cell_y f c) z)%num
  | ZExtremum => exists c v, In c z /\ shows_at f c v /\ p = (cell_x f c, cell_y f c) /\
      forall d w, In d z -> shows_at f d w ->
        ((0 <= lo)%num -> (w <= v)%num) /\ ((hi <= 0)%num -> (lo < 0)%num -> (v <= w)%num)
  | ZOther => False
  end.

(** ** histogram *)
(** [e] is the list of the n+1 edges of n equal bins between a and b *)
Definition equal_bins (a b : num) (n : nat) (e : nat -> num) : Prop :=
  forall i, i <= n -> e i = (a + qn i * ((b - a) / qn n))%num.
(** v is in the i-th bin: its upper edge is in the next one, but for the last bin *)
Definition in_bin (n : nat) (e : nat -> num) (i : nat) (v : num) : Prop :=
  (e i <= v)%num /\ ((v < e (S i))%num \/ (S i = n /\ v = e n)).
(** k cells of the field show a value satisfying P *)
Definition cells_showing (f : sfield) (P : num -> Prop) (k : nat) : Prop :=
  exists cs, NoDup cs /\ length cs = k /\ forall c, In c cs <-> exists v, shows_at f c v /\ P v.
(** v is in one of the first bins, up to the i-th *)
Definition up_to_bin (n : nat) (e : nat -> num) (i : nat) (v : num) : Prop :=
  (e 0%nat <= v)%num /\ ((v < e (S i))%num \/ (S i = n /\ v = e n)).
Definition nothing_masked (f : sfield) : Prop :=
  forall i j, i < length (ax (sg f)) -> j < length (ay (sg f)) -> exists v, shows_at f (i, j) v.
(** the bins cover the range asked for, or the values of the field when none is; they cover an interval of length 1 around a single value *)
Definition bin_range (f : sfield) (range : option (num * num)) (a b : num) : Prop :=
  exists lo hi,
    match range with
    | Some (p, q) => lo = p /\ hi = q /\ (p <= q)%num
    | None => nothing_masked f /\ least_shown f lo /\ most_shown f hi
    end /\
    (((lo < hi)%num /\ a = lo /\ b = hi) \/ (lo = hi /\ a = (lo - qq 1 2)%num /\ b = (hi + qq 1 2)%num)).
(** the number of bins asked for, 10 by default *)
Definition bins_meant (bins : option Z) (n : nat) : Prop := match bins with None => n = 10 | Some z => z = Z.of_nat n /\ 0 < n end.
