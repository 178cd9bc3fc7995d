(** * Series2Model: more of the series of fields: background of an image series (core/temporalscalarfields.py 99-204), cropping of
    the masked border, weird fields and injected profiles (core/temporalfields.py 520-564, 1289-1370, 1419-1475), filling in time
    (core/temporalscalarfields.py 321-415, core/temporalvectorfields.py 249-376). *)
From Verif Require Import Num Res ListLib SortLib Arr FieldModel ScalarFieldModel VectorFieldModel ProfileModel PointsModel TemporalModel
  PodModel AsciiModel Prof2Model.

(** ** get_background (99-151) *)
(** vals[mean - std < vals < mean + std] (132-133): |v - mean| < std is squared *)
Definition clip (mu var : num) (l : list num) : list num := filter (fun v => qltb ((v - mu) * (v - mu)) var)%num l.
(** the loop 131-138.  The mean of no value is NaN, and 0 <= n/10 ends the loop; std < noise_level is squared. *)
Fixpoint bg_loop (fuel n : nat) (noise : num) (l : list num) (mu var : num) : res onum :=
  match fuel with
  | 0 => Err OutOfFuel
  | S k =>
    let l' := clip mu var l in
    if Nat.eqb (length l') 0 then Ok None
    else
      let mu' := mean l' in let var' := pvariance l' mu' in
      if (qltb 0%num noise && qltb var' (noise * noise)%num || Nat.leb (10 * length l') n || qeqb var var')%bool then Ok (Some mu')
      else bg_loop k n noise l' mu' var'
  end.
Fixpoint all_numbers (l : list onum) : option (list num) :=
  match l with
  | [] => Some []
  | None :: _ => None
  | Some v :: t => option_map (cons v) (all_numbers t)
  end.
(** one pixel (121-139): with a NaN in the series the comparisons are all False *)
Definition bg_pixel (noise : num) (vs : list onum) : res onum :=
  match all_numbers vs with
  | None => Ok None
  | Some l => if Nat.eqb (length l) 0 then Ok None else bg_loop (S (length l)) (length l) noise l (mean l) (pvariance l (mean l))
  end.
(** the stored values are read, not those of the getter (122) *)
Definition pixel (t : tfield sfield) (i j : nat) : list onum := map (fun f => at_ (raw f) i j) (tff t).
Definition tsf_background (t : tfield sfield) (noise : num) : res sfield :=
  let n := length (ax (tfg t)) in let m := length (ay (tfg t)) in
  raise IndexErr when (existsb (fun f => Nat.ltb (d0 (raw f)) n || Nat.ltb (d1 (raw f)) m)%bool (tff t)) ;;
  let* vs := mapM (fun c => bg_pixel noise (pixel t (fst c) (snd c))) (list_prod (seq 0 n) (seq 0 m)) in
  let* a := reshape None n m vs in
  sf_import (ax (tfg t)) (ay (tfg t)) a None (ux (tfg t)) (uy (tfg t)) one_unit.

(** ** substract_background (153-204), blend=False.  Arrays of different shapes are refused (numpy's broadcasting of shapes 1 is
    not modelled). *)
Definition sf_mean (f : sfield) : onum :=
  let l := flat_map (fun t => if fst t : bool then [] else [snd t]) (combine (flatten (msk f)) (flatten (values f))) in
  match l with [] => None | _ => odiv (Prof2Model.osum l) (Some (qn (length l))) end.
Definition near_bg (noise : num) (v b : onum) : bool :=
  match v, b with Some v, Some b => (qltb v (b + noise) && qltb (b - noise) v)%num%bool | _, _ => false end.
Definition tsf_subtract (t : tfield sfield) (bg : sfield) (noise : num) (filling : option num) : res (tfield sfield) :=
  let c := match filling with Some c => Some c | None => sf_mean bg end in
  let* fs := mapM (fun f =>
    raise ValueErr when (negb (Nat.eqb (d0 (raw f)) (d0 (raw bg)) && Nat.eqb (d1 (raw f)) (d1 (raw bg)))) ;;
    set_values f (amap2 (fun v b => if near_bg noise v b then c else v) (values f) (values bg))) (tff t) in
  Ok (mktf (tfg t) fs (tfa t) (tft t) (tfu t)).

(** ** crop_masked_border (temporalfields.py 1289-1370), inplace=False: None when nothing is masked in all frames *)
Definition cum_row (m : arr bool) (i : nat) : nat := count_true (map (fun j => at_ m i j) (seq 0 (d1 m))).
Definition cum_col (m : arr bool) (j : nat) : nat := count_true (map (fun i => at_ m i j) (seq 0 (d0 m))).
(** one turn of the loop 1314-1342: None when the loop ends *)
Definition tf_hard_step {F} (ops : fops F) (t : tfield F) : res (option (tfield F)) :=
  let m := tf_mask_cum ops t in
  raise IndexErr when (Nat.eqb (d0 m) 0 || Nat.eqb (d1 m) 0)%bool ;;
  let b1 := cum_row m 0 in let b2 := cum_row m (d0 m - 1) in let b3 := cum_col m 0 in let b4 := cum_col m (d1 m - 1) in
  let n := Z.of_nat (length (ax (tfg t))) in let k := Z.of_nat (length (ay (tfg t))) in
  let crop ivx ivy := (let* t' := tf_crop_ind ops t ivx ivy None in Ok (Some t')) in
  match argmax4 b1 b2 b3 b4 with
  | 0 => if Nat.eqb b1 0 then Ok None else crop (Some (1%Z, n)) None
  | 1 => if Nat.eqb b2 0 then Ok None else crop (Some (0%Z, (n - 2)%Z)) None
  | 2 => if Nat.eqb b3 0 then Ok None else crop None (Some (1%Z, k))
  | _ => if Nat.eqb b4 0 then Ok None else crop None (Some (0%Z, (k - 2)%Z))
  end.
Fixpoint tf_hard_loop {F} (ops : fops F) (fuel : nat) (t : tfield F) : res (tfield F) :=
  match fuel with
  | 0 => Err OutOfFuel
  | S k => let* r := tf_hard_step ops t in match r with None => Ok t | Some t' => tf_hard_loop ops k t' end
  end.
(** soft cropping (1347-1370): None as well when everything is masked *)
Definition tf_crop_masked {F} (ops : fops F) (t : tfield F) (hard : bool) : res (option (tfield F)) :=
  let m := tf_mask_cum ops t in
  if negb (existsb (fun b => b) (flatten m)) then Ok None
  else if hard then
    let* t1 := tf_crop_border ops t in
    let* t2 := tf_hard_loop ops (S (length (ax (tfg t1)) + length (ay (tfg t1)))) t1 in Ok (Some t2)
  else
    match first_ok (cum_row_ok m) (d0 m), last_ok (cum_row_ok m) (d0 m), first_ok (cum_col_ok m) (d1 m), last_ok (cum_col_ok m) (d1 m) with
    | Some x0, Some x1, Some y0, Some y1 => let* t' := tf_crop_ind ops t (zpair x0 x1) (zpair y0 y1) None in Ok (Some t')
    | _, _, _, _ => Ok None
    end.

(** ** remove_weird_fields (1419-1475) of a series of vector fields.  [root] is the power .5. *)
(** sum of the magnitudes of the unmasked vectors (1448) *)
Definition magnitudes (root : num -> num) (f : vfield) : onum :=
  Prof2Model.osum (flat_map (fun c => if at_ (vmsk f) (fst c) (snd c) then []
                            else [option_map root (oadd (omul (at_ (cx f) (fst c) (snd c)) (at_ (cx f) (fst c) (snd c)))
                                                        (omul (at_ (cy f) (fst c) (snd c)) (at_ (cy f) (fst c) (snd c))))])
                 (list_prod (seq 0 (d0 (cx f))) (seq 0 (d1 (cx f))))).
(** 1449-1453: NaN everywhere when one of the sums is NaN; [beyond d f v] is d > f * sqrt(v) *)
Definition weird_inds (l : list onum) (coef : num) : list nat :=
  match all_numbers l with
  | None => []
  | Some ms =>
    let mu := mean ms in let var := pvariance ms mu in
    filter (fun k => (beyond (mu - nths ms k) coef var || beyond (nths ms k - mu) coef var)%num%bool) (seq 0 (length ms))
  end.
Definition memz (k : Z) (l : list Z) : bool := existsb (Z.eqb k) l.
(** the loop 1459-1464 *)
Fixpoint weird_eps (fuel : nat) (w : Z) (ws : list Z) (eps : Z) : res Z :=
  match fuel with
  | 0 => Err OutOfFuel
  | S k => if (memz (w + eps) ws || memz (w - eps) ws)%bool then weird_eps k w ws (eps + 1)%Z else Ok eps
  end.
Fixpoint replace_at {A} (k : nat) (a : A) (l : list A) : list A :=
  match l, k with
  | [], _ => []
  | _ :: t, 0 => a :: t
  | x :: t, S j => x :: replace_at j a t
  end.
(** 1457-1466: negative indices count from the end *)
Fixpoint weird_replace (ws : list Z) (fs : list vfield) (todo : list nat) : res (list vfield) :=
  match todo with
  | [] => Ok fs
  | w :: r =>
    let* eps := weird_eps (S (length ws)) (Z.of_nat w) ws 1%Z in
    let* a := py_get fs (Z.of_nat w + eps)%Z in
    let* b := py_get fs (Z.of_nat w - eps)%Z in
    let* s := vf_plus a b in
    weird_replace ws (replace_at w (vf_div_num s 2%num) fs) r
  end.
Inductive wtreat := WInterpolate | WRemove | WOther.
Definition remove_weird (root : num -> num) (t : tfield vfield) (coef : num) (w : wtreat) : res (tfield vfield) :=
  let ws := weird_inds (map (magnitudes root) (tff t)) coef in
  match w with
  | WInterpolate => let* fs := weird_replace (map Z.of_nat ws) (tff t) ws in Ok (mktf (tfg t) fs (tfa t) (tft t) (tfu t))
  | WRemove => out_res (tf_remove t (map Z.of_nat ws))
  | WOther => Err ValueErr
  end.

(** ** inject_time_profile (520-564) at a point given by its indices (ind=True): the values of the profile are written in the array
    of the getter, that is in the stored array. *)
Definition inject_sf (t : tfield sfield) (i j : nat) (p : profile) : res (tfield sfield) :=
  raise ValueErr when (negb (Nat.ltb i (length (ax (tfg t))) && Nat.ltb j (length (ay (tfg t))))) ;;
  raise ValueErr when (negb (Nat.eqb (length (px p)) (length (tff t)))) ;;
  raise IndexErr when (existsb (fun f => negb (Nat.ltb i (d0 (raw f)) && Nat.ltb j (d1 (raw f)))) (tff t)) ;;
  let fs := map (fun q => let f := read_values (fst q) in mksf (sg f) (aput (raw f) i j (snd q)) (msk f) (uv f)) (combine (tff t) (yv p)) in
  Ok (mktf (tfg t) fs (tfa t) (tft t) (tfu t)).
(** get_time_profile (450-518) with ind=True and no interval *)
Definition cell_profile {F} (ops : fops F) (comp : F -> arr onum) (uvals : unit_t) (t : tfield F) (i j : nat) : res profile :=
  raise ValueErr when (negb (Nat.ltb i (length (ax (tfg t))) && Nat.ltb j (length (ay (tfg t))))) ;;
  let inds := seq 0 (length (tft t)) in
  let* (v, m) := time_samples ops comp t (repeat (i, j) (length (tft t))) inds in
  prof_new (map (fun k => nths (tft t) k) inds) v (Some m) (tfu t) uvals.

(** ** fill(tof='temporal') of a series of vector fields (temporalvectorfields.py 290-358), crop=False *)
Inductive tkind := TValue (c d : num) | TNearest | TLinear.
(** the function of 311-344; [None] stands for the ValueError caught at 351: outside of the range of the valid times *)
Definition time_interp (k : tkind) (c : num) (p : profile) : res (num -> option num) :=
  match k with
  | TValue _ _ => Ok (fun _ => Some c)
  | TNearest => Err GenericErr
  | TLinear =>
    let v := valid_pts p in
    raise ValueErr when (Nat.ltb (length v) 2) ;;
    Ok (fun x => if in_range (map fst v) x then Some (interp1d (map fst v) (map snd v) x) else None)
  end.
Definition put_x (f : vfield) (i j : nat) (v : num) : vfield := mkvf (vg f) (aput (cx f) i j (Some v)) (cy f) (aput (vmsk f) i j false) (vuv f).
Definition put_y (f : vfield) (i j : nat) (v : num) : vfield := mkvf (vg f) (cx f) (aput (cy f) i j (Some v)) (aput (vmsk f) i j false) (vuv f).
(** the loops 348-358 *)
Definition put_all (put : vfield -> nat -> nat -> num -> vfield) (p : profile) (g : num -> option num) (i j : nat) (fs : list vfield) : list vfield :=
  map (fun k => let f := fst k in let q := snd k in
         if snd q : bool then match g (fst q) with Some v => put f i j v | None => f end else f) (combine fs (combine (px p) (pm p))).
Definition fill_cell (k : tkind) (t : tfield vfield) (c : nat * nat) : res (tfield vfield) :=
  let (i, j) := c in
  let* p := cell_profile vf_ops cx one_unit t i j in
  let* q := cell_profile vf_ops cy one_unit t i j in
  let* g := time_interp k (match k with TValue c _ => c | _ => 0%num end) p in
  let* h := time_interp k (match k with TValue _ d => d | _ => 0%num end) q in
  Ok (mktf (tfg t) (put_all put_y q h i j (put_all put_x p g i j (tff t))) (tfa t) (tft t) (tfu t)).
Fixpoint fill_cells (k : tkind) (t : tfield vfield) (l : list (nat * nat)) : res (tfield vfield) :=
  match l with [] => Ok t | c :: r => let* t' := fill_cell k t c in fill_cells k t' r end.
Definition masked_count {F} (ops : fops F) (t : tfield F) (i j : nat) : nat := count_true (map (fun f => at_ (o_mask ops f) i j) (tff t)).
(** super_mask (295-298) *)
Definition to_fill {F} (ops : fops F) (t : tfield F) : list (nat * nat) :=
  filter (fun c => (Nat.ltb 0 (masked_count ops t (fst c) (snd c)) && Nat.ltb (masked_count ops t (fst c) (snd c) + 2) (length (tff t)))%bool)
         (list_prod (seq 0 (length (ax (tfg t)))) (seq 0 (length (ay (tfg t))))).
(** The series returned and the series itself afterwards: the copy of line 346 is shallow, so that the frames are the same objects.
    When there is nothing to fill the name fields is not bound. *)
Definition tvf_fill_time (t : tfield vfield) (k : tkind) : res (tfield vfield * tfield vfield) :=
  raise ValueErr when (Nat.ltb (length (tff t)) 3) ;;
  match to_fill vf_ops t with
  | [] => Err UnboundErr
  | l => let* t' := fill_cells k t l in Ok (t', t')
  end.
(** fill(tof='temporal') of a series of scalar fields (temporalscalarfields.py 352-401): get_time_profile is called with i for the
    point and j for the interval of time (366), and j[-1] raises (temporalfields.py 492) *)
Definition tsf_fill_time (t : tfield sfield) (k : tkind) : res (tfield sfield) :=
  raise ValueErr when (Nat.ltb (length (tff t)) 3) ;;
  match to_fill sf_ops t with
  | [] => Err UnboundErr
  | _ => Err IndexErr
  end.
(** fill(tof='spatial', kind='value') (402-415) *)
Definition tsf_fill_value (t : tfield sfield) (c : num) : res (tfield sfield) :=
  let* fs := mapM (fun f => sf_fill_value f c) (tff t) in Ok (mktf (tfg t) fs (tfa t) (tft t) (tfu t)).
