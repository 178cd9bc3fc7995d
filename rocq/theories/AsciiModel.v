(** * AsciiModel: text files (IMTreatment/file_operation/file_operation.py, 1569-1818 and 1901-1975).
    A text file is a list of lines; a line is a comment (it begins with '#') or the numbers written on it.  The
    writing of a float by str.format and its reading by numpy.genfromtxt are inverse of each other (python writes
    the shortest text that reads back as the same float, and 'nan' for NaN), so that the text of a number is
    identified with the number.  Paths, delimiters and the other keywords of genfromtxt are not modelled. *)
From Verif Require Import Num Res ListLib SortLib Arr FieldModel ScalarFieldModel VectorFieldModel ProfileModel PointsModel.

Inductive line : Type := Comment | Row (r : list onum).

(** ** export_to_ascii (1901-1970) *)
(** a vector field (1908-1922) *)
Definition export_vf (f : vfield) : list line :=
  Comment ::
  flat_map (fun i => map (fun j => Row [Some (nths (ax (vg f)) i); Some (nths (ay (vg f)) j); at_ (cx f) i j; at_ (cy f) i j])
                         (seq 0 (length (ay (vg f))))) (seq 0 (length (ax (vg f)))).
(** a scalar field (1923-1937) *)
Definition export_sf (f : sfield) : list line :=
  Comment ::
  flat_map (fun i => map (fun j => Row [Some (nths (ax (sg f)) i); Some (nths (ay (sg f)) j); at_ (values f) i j])
                         (seq 0 (length (ay (sg f))))) (seq 0 (length (ax (sg f)))).
(** a profile (1938-1949); obj.y is the array of the getter, with NaN where the mask is True *)
Definition export_prof (p : profile) : list line :=
  Comment :: map (fun t : num * onum => Row [Some (fst t); snd t]) (combine (px p) (yv p)).
(** a set of points (1950-1970) *)
Definition export_pts (p : points) : list line :=
  Comment ::
  (if Nat.eqb (length (pv p)) 0 then map (fun q : num * num => Row [Some (fst q); Some (snd q)]) (xy p)
   else map (fun t : (num * num) * num => Row [Some (fst (fst t)); Some (snd (fst t)); Some (snd t)]) (combine (xy p) (pv p))).

(** ** numpy.genfromtxt: comments and empty lines are skipped, the lines must have the same number of columns.
    With a single line or a single column the result has one dimension, and data[:, k] raises IndexError. *)
Definition rows_of (f : list line) : list (list onum) :=
  flat_map (fun l => match l with Comment => [] | Row [] => [] | Row r => [r] end) f.
Definition genfromtxt (f : list line) : res (list (list onum)) :=
  match rows_of f with
  | [] => Err IndexErr
  | r :: t =>
      raise ValueErr when (existsb (fun s => negb (Nat.eqb (length s) (length r))) t) ;;
      raise IndexErr when (Nat.eqb (length t) 0 || Nat.eqb (length r) 1)%bool ;;
      Ok (r :: t)
  end.
(** data[:, k-1] for a column number k >= 1 *)
Definition column (t : list (list onum)) (k : nat) : res (list onum) :=
  mapM (fun r => match nth_error r (k - 1) with Some v => Ok v | None => Err IndexErr end) t.
(** a column of coordinates.  A NaN coordinate is not modelled: GenericErr stands for it. *)
Definition numbers (l : list onum) : res (list num) :=
  mapM (fun v => match v with Some x => Ok x | None => Err GenericErr end) l.
Definition coords (t : list (list onum)) (k : nat) : res (list num) := let* c := column t k in numbers c.

(** numpy.unique: the values in increasing order, each one once *)
Fixpoint uins (x : num) (l : list num) : list num :=
  match l with
  | [] => [x]
  | y :: t => if qltb x y then x :: l else if qeqb x y then l else y :: uins x t
  end.
Definition unique (l : list num) : list num := fold_right uins [] l.

(** numpy.reshape of an array of one dimension *)
Definition reshape {A} (d : A) (n m : nat) (l : list A) : res (arr A) :=
  raise ValueErr when (negb (Nat.eqb (length l) (n * m))) ;;
  Ok (mkarr n m (fun i j => nth (i * m + j) l d)).
(** numpy.mean along the axes 1 and 0 *)
Definition mean1 (a : arr num) : list num :=
  map (fun i => Num.qsum (map (fun j => at_ a i j) (seq 0 (d1 a))) / qn (d1 a))%num (seq 0 (d0 a)).
Definition mean0 (a : arr num) : list num :=
  map (fun j => Num.qsum (map (fun i => at_ a i j) (seq 0 (d0 a))) / qn (d0 a))%num (seq 0 (d1 a)).
(** numpy.allclose(a, b): |a - b| <= 1e-8 + 1e-5 |b|, for arrays of the same length *)
Definition close (a b : num) : bool := qleb (qabs (a - b)) (qq 1 100000000 + qq 1 100000 * qabs b)%num.
Definition allclose (a b : list num) : bool := forallb (fun t => close (fst t) (snd t)) (combine a b).

Definition aput {A} (a : arr A) (i j : nat) (v : A) : arr A :=
  mkarr (d0 a) (d1 a) (fun k l => if (Nat.eqb k i && Nat.eqb l j)%bool then v else at_ a k l).
(** A numpy masked array whose cells are all masked at first: a cell is [None] until a value is put in it,
    which unmasks it (the datum of such a cell is 0). *)
Notation marr := (arr (option onum)).
Definition ma_data (a : marr) : arr onum := amap (fun c => match c with None => Some (qz 0) | Some v => v end) a.
Definition ma_mask (a : marr) : arr bool := amap (fun c => match c with None => true | Some v => isnan v end) a.

(** ** import_sf_from_ascii (1653-1733) *)
(** np.where(x == l)[0][0] *)
Fixpoint where_first (x : num) (l : list num) : res nat :=
  match l with
  | [] => Err IndexErr
  | y :: t => if qeqb x y then Ok 0 else let* k := where_first x t in Ok (S k)
  end.
(** one turn of the loop 1708-1720: the indices found at the previous turn, and the array of shape (len y, len x) *)
Definition sf_turn (X Y : list num) (s : nat * nat * marr) (r : num * num * onum) : res (nat * nat * marr) :=
  let '(xi, yi, a) := s in
  let '(x, y, v) := r in
  let* xi := (if qeqb (nths X xi) x then Ok xi else where_first x X) in
  let* yi := (if qeqb (nths Y yi) y then Ok yi else where_first y Y) in
  Ok (xi, yi, aput a yi xi (Some v)).
Fixpoint sf_loop (X Y : list num) (s : nat * nat * marr) (l : list (num * num * onum)) : res (nat * nat * marr) :=
  match l with
  | [] => Ok s
  | r :: t => let* s := sf_turn X Y s r in sf_loop X Y s t
  end.
Definition import_sf (f : list line) (xc yc vc : nat) (u w z : unit_t) : res sfield :=
  raise ValueErr when (Nat.eqb xc 0 || Nat.eqb yc 0 || Nat.eqb vc 0)%bool ;;
  let* t := genfromtxt f in
  let* x := coords t xc in
  let X := unique x in
  let* y := coords t yc in
  let Y := unique y in
  let* v := column t vc in
  let* X1 := reshape (qz 0) (length X) (length Y) x in
  let* X2 := reshape (qz 0) (length Y) (length X) x in
  let* vm := (if allclose (mean1 X1) X then
                let* a := reshape None (length X) (length Y) v in
                Ok (a, amap isnan a)
              else if allclose (mean0 X2) X then
                let* a := reshape None (length Y) (length X) v in
                let a := aflip1 (atrans a) in
                Ok (a, amap isnan a)
              else
                let* s := sf_loop X Y (0, 0, afull (length Y) (length X) None) (combine (combine x y) v) in
                Ok (ma_data (snd s), ma_mask (snd s))) in
  sf_import X Y (fst vm) (Some (snd vm)) u w z.

(** ** import_vf_from_ascii (1736-1818) *)
(** the loops 1796-1802: the last index with this coordinate, or the index of the previous turn *)
Definition find_last (x : num) (l : list num) (k : option nat) : option nat :=
  fold_left (fun k j => if qeqb (nths l j) x then Some j else k) (seq 0 (length l)) k.
(** one turn of the loop 1790-1805 *)
Definition vf_turn (X Y : list num) (s : option nat * option nat * marr * marr) (r : num * num * (onum * onum)) :
  res (option nat * option nat * marr * marr) :=
  let '(xi, yi, a, b) := s in
  let '(x, y, (vx, vy)) := r in
  match find_last x X xi, find_last y Y yi with
  | Some i, Some j => Ok (Some i, Some j, aput a i j (Some vx), aput b i j (Some vy))
  | _, _ => Err UnboundErr
  end.
Fixpoint vf_loop (X Y : list num) (s : option nat * option nat * marr * marr) (l : list (num * num * (onum * onum))) :
  res (option nat * option nat * marr * marr) :=
  match l with
  | [] => Ok s
  | r :: t => let* s := vf_turn X Y s r in vf_loop X Y s t
  end.
(** the mask given to import_from_arrays is the one of the x component (1811) *)
Definition import_vf (f : list line) (xc yc vxc vyc : nat) (u w z : unit_t) : res vfield :=
  raise ValueErr when (Nat.eqb xc 0 || Nat.eqb yc 0 || Nat.eqb vxc 0 || Nat.eqb vyc 0)%bool ;;
  let* t := genfromtxt f in
  let* x := coords t xc in
  let X := unique x in
  let* y := coords t yc in
  let Y := unique y in
  let* vx := column t vxc in
  let* vy := column t vyc in
  let e := afull (length X) (length Y) None in
  let* s := vf_loop X Y (None, None, e, e) (combine (combine x y) (combine vx vy)) in
  let '(_, _, a, b) := s in
  vf_import X Y (ma_data a) (ma_data b) (ma_mask a) u w z.

(** ** import_profile_from_ascii (1569-1604) *)
Definition import_prof (f : list line) (xc yc : nat) (u w : unit_t) : res profile :=
  raise ValueErr when (Nat.eqb xc 0 || Nat.eqb yc 0)%bool ;;
  let* t := genfromtxt f in
  let* x := coords t xc in
  let* y := column t yc in
  prof_new x y None u w.
(** ** import_pts_from_ascii (1607-1650).  NaN values of points are not modelled. *)
Definition import_pts (f : list line) (xc yc : nat) (vc : option nat) (u w z : unit_t) : res points :=
  raise ValueErr when (Nat.eqb xc 0 || Nat.eqb yc 0)%bool ;;
  let* t := genfromtxt f in
  let* x := coords t xc in
  let* y := coords t yc in
  let* v := match vc with
            | None => Ok []
            | Some k => if Nat.eqb k 0 then Ok [] else coords t k
            end in
  pts_new (combine x y) v u w z.
