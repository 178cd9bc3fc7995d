(** * SpatialModel: sets of fields covering different areas
    (core/spatialfields.py, spatialscalarfields.py, spatialvectorfields.py). *)
From Coq Require Import ZArith String.
From Verif Require Import Num Res ListLib Arr FieldModel ScalarFieldModel VectorFieldModel TemporalModel.

(** ** What a set asks of its fields *)
Record spops (F V : Type) : Type := mkspops {
  p_grid : F -> grid;                              (* axes and their units *)
  p_unit : F -> unit_t;                            (* unit of the values *)
  p_change : F -> axname -> unit_t -> res F;       (* field.change_unit, in place *)
  p_border : F -> res F;                           (* field.crop_masked_border(hard=False, inplace=True) *)
  p_value : F -> num -> num -> res V;              (* field.get_value(x, y) *)
  p_plus : V -> V -> V;                            (* values += ... *)
  p_over : nat -> V -> V                           (* values /= n *)
}.
Arguments mkspops {F V}. Arguments p_grid {F V}. Arguments p_unit {F V}. Arguments p_change {F V}.
Arguments p_border {F V}. Arguments p_value {F V}. Arguments p_plus {F V}. Arguments p_over {F V}.

(** scalar fields: scalarfield.py crop_masked_border (1727-1784); nothing is done without masked value (1742-1743) *)
Definition sf_border (f : sfield) : res sfield :=
  let* o := crop_masked_border f false in Ok (match o with Some g => g | None => f end).
Definition over (n : nat) (v : onum) : onum := option_map (fun a => a / qn n)%num v.
Definition sf_sops (ci : sfield -> nat -> nat -> num -> num -> onum) : spops sfield onum :=
  mkspops sg uv sf_change_unit sf_border (get_value ci) oadd over.

(** vector fields: vectorfield.py crop_masked_border (1007-1064), soft cropping *)
Definition vf_border (f : vfield) : res vfield :=
  let s := mksf (vg f) (cx f) (vmsk f) (vuv f) in
  if any_masked s then
    match first_ok (row_ok s) (d0 (vmsk f)), last_ok (row_ok s) (d0 (vmsk f)),
          first_ok (col_ok s) (d1 (vmsk f)), last_ok (col_ok s) (d1 (vmsk f)) with
    | Some x0, Some x1, Some y0, Some y1 => vf_crop_ind f (zpair x0 x1) (zpair y0 y1)
    | _, _, _, _ => Err IndexErr
    end
  else Ok f.
(** vectorfield.py get_value (629-638), ind=False *)
Definition vf_value (ci : sfield -> nat -> nat -> num -> num -> onum) (f : vfield) (x y : num) : res (onum * onum) :=
  let* sx := comp_sf f (cx f) in
  let* a := get_value ci sx x y in
  let* sy := comp_sf f (cy f) in
  let* b := get_value ci sy x y in
  Ok (a, b).
Definition vf_sops (ci : sfield -> nat -> nat -> num -> num -> onum) : spops vfield (onum * onum) :=
  mkspops vg vuv vf_change_unit vf_border (vf_value ci)
          (fun a b => (oadd (fst a) (fst b), oadd (snd a) (snd b))) (fun n a => (over n (fst a), over n (snd a))).

(** ** The set: SpatialScalarFields.__init__, SpatialVectorFields.__init__ and Fields.__init__: no field, and
    no unit until the first field *)
Record sset (F : Type) : Type := mkset { s_units : option (unit_t * unit_t * unit_t); s_fields : list F }.
Arguments mkset {F}. Arguments s_units {F}. Arguments s_fields {F}.
Definition sp_new {F} : sset F := mkset None [].

(** ** add_field (spatialfields.py 151-173, fields.py 117-133, copy=True), for a field of the right type.
    Gives the given field after the call (it is converted and cropped in place), the set after the call, and
    the exception raised, if any. *)
Definition units_of {F V} (o : spops F V) (f : F) : unit_t * unit_t * unit_t :=
  (ux (p_grid o f), uy (p_grid o f), p_unit o f).
Definition in_unit (e : exn) : exn := match e with UnitErr => ValueErr | _ => e end.
(** 164-169: the three conversions, one after the other; the first that fails leaves the previous ones done *)
Definition sp_convert {F V} (o : spops F V) (u : unit_t * unit_t * unit_t) (f : F) : F * option exn :=
  let '(a, b, c) := u in
  match p_change o f AxX a with
  | Err e => (f, Some (in_unit e))
  | Ok f1 =>
    match p_change o f1 AxY b with
    | Err e => (f1, Some (in_unit e))
    | Ok f2 =>
      match p_change o f2 AxValues c with
      | Err e => (f2, Some (in_unit e))
      | Ok f3 => (f3, None)
      end
    end
  end.
(** 170-173: crop, then append a copy *)
Definition sp_append {F V} (o : spops F V) (s : sset F) (f : F) : F * sset F * option exn :=
  match p_border o f with
  | Err e => (f, s, Some e)
  | Ok g => (g, mkset (s_units s) (s_fields s ++ [g]), None)
  end.
Definition sp_add {F V} (o : spops F V) (s : sset F) (f : F) : F * sset F * option exn :=
  match s_fields s with
  | [] => sp_append o (mkset (Some (units_of o f)) []) f
  | _ :: _ =>
    match s_units s with
    | None => (f, s, Some AttrErr)
    | Some u =>
      match sp_convert o u f with
      | (f1, Some e) => (f1, s, Some e)
      | (f1, None) => sp_append o s f1
      end
    end
  end.
(** a history of additions, each failing or not *)
Fixpoint sp_adds {F V} (o : spops F V) (s : sset F) (l : list F) : sset F :=
  match l with
  | [] => s
  | f :: l' => let '(_, s', _) := sp_add o s f in sp_adds o s' l'
  end.

(** ** get_value (175-210).  Simplification: the fields have at least one point on each axis. *)
Definition strictly_inside (axe : list num) (x : num) : bool := (qltb (nths axe 0) x && qltb x (last axe (qz 0)))%bool.
Definition sp_in {F V} (o : spops F V) (x y : num) (f : F) : bool :=
  (strictly_inside (ax (p_grid o f)) x && strictly_inside (ay (p_grid o f)) y)%bool.
Definition sp_value {F V} (o : spops F V) (s : sset F) (x y : num) (error : bool) : res (option V) :=
  match filter (sp_in o x y) (s_fields s) with
  | [] => if error then Err ValueErr else Ok None
  | [f] => let* v := p_value o f x y in Ok (Some v)
  | f :: rest =>
    let* v := p_value o f x y in
    let* vs := mapM (fun h => p_value o h x y) rest in
    Ok (Some (p_over o (List.length (f :: rest)) (fold_left (p_plus o) vs v)))
  end.

(** ** get_values_on_grid (212-263) *)
Definition sp_samples {F V} (o : spops F V) (s : sset F) (X Y : list num) : res (list (list (option V))) :=
  mapM (fun x => mapM (fun y => sp_value o s x y false) Y) X.
Definition cell_at {V} (rows : list (list (option V))) (i j : nat) : option V := nth j (nth i rows []) None.
(** scalar fields (228-243): import_from_arrays is called on the class, one argument is missing *)
Definition ssf_on_grid (ci : sfield -> nat -> nat -> num -> num -> onum) (s : sset sfield) (X Y : list num) : res sfield :=
  raise IndexErr when (match s_fields s with [] => true | _ => false end) ;;
  let* _ := sp_samples (sf_sops ci) s X Y in
  Err TypeErr.
(** vector fields (244-260) *)
Definition svf_on_grid (ci : sfield -> nat -> nat -> num -> num -> onum) (s : sset vfield) (X Y : list num) : res vfield :=
  raise IndexErr when (match s_fields s with [] => true | _ => false end) ;;
  let* rows := sp_samples (vf_sops ci) s X Y in
  let comp p := mkarr (List.length X) (List.length Y) (fun i j => match cell_at rows i j with Some v => p v | None => Some 0%num end) in
  let mask := mkarr (List.length X) (List.length Y) (fun i j => match cell_at rows i j with Some _ => false | None => true end) in
  match s_units s with
  | None => Err AttrErr
  | Some (a, b, c) => vf_import X Y (comp fst) (comp snd) mask a b c
  end.

(** ** get_profile (265-337).  The direction is a number or a string; ScalarField.get_profile (scalarfield.py 821-822)
    accepts the strings 'x' and 'y' alone.  [getp] is the rest of ScalarField.get_profile. *)
Inductive pdir := PNum (n : Z) | PStr (s : string).
Definition sf_profile_of {P} (getp : sfield -> string -> list num -> res P) (f : sfield) (d : pdir) (pos : list num) : res P :=
  match d with
  | PStr s => if (String.eqb s "x" || String.eqb s "y")%bool then getp f s pos else Err TypeErr
  | PNum _ => Err TypeErr
  end.
(** 304-314: the fields met by the position (one number or an interval) *)
Definition crosses (axe pos : list num) : bool :=
  (existsb (fun p => qltb p (last axe (qz 0))) pos && existsb (fun p => qltb (nths axe 0) p) pos)%bool.
Definition met {F V} (o : spops F V) (d : pdir) (pos : list num) (f : F) : bool :=
  match d with
  | PNum n => if (n =? 1)%Z then crosses (ax (p_grid o f)) pos else if (n =? 2)%Z then crosses (ay (p_grid o f)) pos else false
  | PStr _ => false
  end.
(** [comp]: the component asked for, as scalar fields; None when the variable is left unbound (291-292) *)
Definition sp_profile {F V P} (o : spops F V) (getp : sfield -> string -> list num -> res P) (join : list P -> P)
    (s : sset F) (comp : option (list sfield)) (d : pdir) (pos : list num) : res (option P) :=
  match filter (fun i => match nth_error (s_fields s) i with Some f => met o d pos f | None => false end) (seq 0 (List.length (s_fields s))) with
  | [] => Ok None
  | inds =>
    match comp with
    | None => Err UnboundErr
    | Some c =>
      let* ps := mapM (fun i => match nth_error c i with Some f => sf_profile_of getp f d pos | None => Err IndexErr end) inds in
      Ok (Some (match ps with [p] => p | _ => join ps end))
    end
  end.

(** ** x_min, x_max, y_min, y_max (135-149); np.min of an empty list raises *)
Definition np_min (l : list num) : res num := match l with [] => Err ValueErr | a :: t => Ok (fold_left qmin t a) end.
Definition np_max (l : list num) : res num := match l with [] => Err ValueErr | a :: t => Ok (fold_left qmax t a) end.
Definition sp_xmin {F V} (o : spops F V) (s : sset F) : res num := np_min (map (fun f => nths (ax (p_grid o f)) 0) (s_fields s)).
Definition sp_xmax {F V} (o : spops F V) (s : sset F) : res num := np_max (map (fun f => last (ax (p_grid o f)) (qz 0)) (s_fields s)).
Definition sp_ymin {F V} (o : spops F V) (s : sset F) : res num := np_min (map (fun f => nths (ay (p_grid o f)) 0) (s_fields s)).
Definition sp_ymax {F V} (o : spops F V) (s : sset F) : res num := np_max (map (fun f => last (ay (p_grid o f)) (qz 0)) (s_fields s)).

(** ** __neg__ (48-52) and __mul__ by a number (54-64) of scalar fields *)
Definition ssf_neg (s : sset sfield) : sset sfield := mkset (s_units s) (map sf_neg (s_fields s)).
Fixpoint sp_adds_all {F V} (o : spops F V) (s : sset F) (l : list F) : res (sset F) :=
  match l with
  | [] => Ok s
  | f :: l' => match sp_add o s f with
               | (_, _, Some e) => Err e
               | (_, s', None) => sp_adds_all o s' l'
               end
  end.
Definition ssf_mul (ci : sfield -> nat -> nat -> num -> num -> onum) (s : sset sfield) (k : num) : res (sset sfield) :=
  sp_adds_all (sf_sops ci) sp_new (map (fun f => sf_mul_num f k) (s_fields s)).
