(** * Prof2Model: more of the Profile class (IMTreatment/core/profile.py): cropping of the masked ends, positions of a value,
    gradient, auto-correlation, convolutions, marginal values, doublons, even spacing, resolution.
    As in ProfileModel, the samples that are not masked are supposed to be numbers where scipy's interpolation is used. *)
From Verif Require Import Num Res ListLib SortLib Arr FieldModel ScalarFieldModel VectorFieldModel ProfileModel PointsModel GradModel AsciiModel.

(** ** crop_masked_border (1372-1387), inplace=True.  inds_not_masked[0] raises when everything is masked. *)
Definition crop_masked_in (p : profile) : pout :=
  if forallb (fun b => b) (pm p) then (p, Some IndexErr)
  else crop_in_with p (crop_data_ind p (Z.of_nat (first_valid (pm p))) (Z.of_nat (S (last_valid (pm p))))).
Definition out_p (r : pout) : res profile := match r with (p, None) => Ok p | (_, Some e) => Err e end.
(** inplace=False: the same on a copy *)
Definition prof_crop_masked (p : profile) : res profile := out_p (crop_masked_in p).

(** ** get_value_position (604-650) with a number.  The zeros written in the masked points (629) go to the stored array, which
    the y getter rewrites. *)
Definition zeroed (p : profile) : list onum := map (fun t : bool * onum => if fst t then Some 0%num else snd t) (combine (pm p) (yv p)).
Definition changes (p : profile) (v : num) (i : nat) : bool :=
  (xorb (ogt (nth (S i) (zeroed p) None) v) (ogt (nth i (zeroed p) None) v) && negb (nth (S i) (pm p) false || nth i (pm p) false))%bool.
Definition place (p : profile) (v : num) (x1 x2 : num) (i : nat) : onum :=
  match nth i (zeroed p) None, nth (S i) (zeroed p) None with
  | Some a, Some b =>
    let v1 := qabs (a - v)%num in let v2 := qabs (b - v)%num in
    Some (x1 + v1 / (v1 + v2) * (x2 - x1))%num
  | _, _ => None
  end.
Definition value_position (p : profile) (v : num) (ind : bool) : res (list onum) :=
  raise IndexErr when (negb (aligned p)) ;;
  match find (fun i => oeqv (nth i (yv p) None) v) (seq 0 (length (yv p))) with
  | Some i => Ok [Some (if ind then qn i else nths (px p) i)]
  | None =>
    Ok (map (fun i => if ind then place p v (qn i) (qn (S i)) i else place p v (nths (px p) i) (nths (px p) (S i)) i)
            (filter (changes p v) (seq 0 (length (px p) - 1))))
  end.

(** ** the test of an even spacing (681-683, 1724-1726) *)
Definition diffs (l : list num) : list num := map (fun i => (nths l (S i) - nths l i)%num) (seq 0 (length l - 1)).
Definition evenly (l : list num) : bool :=
  forallb (fun d => qltb (qabs (d - step0 l)%num) (qq 1 1000000 * lmax (diffs l))%num) (diffs l).
(** ** get_gradient (663-712), position=None *)
Definition get_gradient (p : profile) : res profile :=
  raise IndexErr when (Nat.ltb (length (px p)) 2) ;;
  raise GenericErr when (negb (evenly (px p))) ;;
  raise IndexErr when (negb (aligned p)) ;;
  let y := yv p in
  let n := length y in
  let g := map (fun i => let (a, b) := gpair n i in odiv (osub (nth b y None) (nth a y None)) (Some (gstep n i (step0 (px p))))) (seq 0 n) in
  let q := fst (set_y p g) in
  Ok (mkprof (px q) (py q) (pm q) (pux q) (unit_div (puy q) (pux q))).

(** ** get_auto_correlation (914-955): the central values taken are w, ..., n - w - 2 (942) *)
Definition osum (l : list onum) : onum := fold_right oadd (Some 0%num) l.
Definition corr_inds (n w : nat) : list nat := seq w (n - w - 1 - w).
Definition corr_raw (p : profile) (wl : Z) : res (list onum) :=
  let y := yv p in
  let n := length y in
  raise ValueErr when (Z.of_nat n - 1 <=? wl)%Z ;;
  raise ValueErr when (Z.div wl 2 <? 0)%Z ;;
  let w := Z.to_nat (Z.div wl 2) in
  let s := osum (map (fun i => omul (nth i y None) (nth i y None)) (corr_inds n w)) in
  Ok (map (fun k => odiv (osum (map (fun i => omul (nth (i - w + k) y None) (nth i y None)) (corr_inds n w))) s) (seq 0 (2 * w + 1))).
(** raw=False (953-955) *)
Definition auto_correlation (p : profile) (wl : Z) : res profile :=
  let* c := corr_raw p wl in
  raise IndexErr when (Nat.ltb (length (px p)) 2) ;;
  let dx := step0 (px p) in
  raise GenericErr when (qeqb dx 0%num) ;;
  prof_new (map (fun i => qn i * dx)%num (seq 0 (length c))) c None (pux p) (mkunit [] 1%num).

(** ** get_convolution (1138-1196) *)
Inductive cmode := MFull | MSame | MValid.
(** numpy.convolve *)
Definition conv_full (a b : list onum) : list onum :=
  map (fun k => osum (map (fun i => omul (nth i a None) (nth (k - i) b None))
                          (filter (fun i => (Nat.leb i k && Nat.ltb (k - i) (length b))%bool) (seq 0 (length a)))))
      (seq 0 (length a + length b - 1)).
Definition np_convolve (a b : list onum) (m : cmode) : list onum :=
  let n := Nat.max (length a) (length b) in let k := Nat.min (length a) (length b) in
  match m with
  | MFull => conv_full a b
  | MSame => slice ((k - 1) / 2) ((k - 1) / 2 + n) (conv_full a b)
  | MValid => slice (k - 1) n (conv_full a b)
  end.
Definition mean (l : list num) : num := (Num.qsum l / qn (length l))%num.
Definition get_convolution (p q : profile) (m : cmode) : res profile :=
  raise IndexErr when (Nat.ltb (length (px p)) 2 || Nat.ltb (length (px q)) 2)%bool ;;
  (* 1177-1179: the deviations are compared without their absolute value *)
  raise GenericErr when (negb (forallb (fun d => qltb (d - step0 (px p)) (last (px p) (qz 0) * qq 1 10000000000))%num (diffs (px p)))) ;;
  (* 1180-1183: x[1] + x[0] is subtracted instead of x[1] - x[0] *)
  raise GenericErr when (negb (forallb (fun d => qltb (d - nths (px q) 1 - nths (px q) 0)%num (qq 1 1000000 * mean (px q))%num) (diffs (px q)))) ;;
  raise GenericErr when (negb (qeqb (step0 (px p)) (step0 (px q)))) ;;
  raise UnitErr when (negb (dim_eqb (dim (pux p)) (dim (pux q)))) ;;
  raise GenericErr when (negb (unit_eqb (pux p) (pux q))) ;;
  let c := np_convolve (yv p) (yv q) m in
  let dx := step0 (px p) in
  raise GenericErr when (qeqb dx 0%num) ;;
  prof_new (map (fun i => qn i * dx)%num (seq 0 (length c))) c None (pux p) (unit_mul (puy p) (puy q)).

(** ** get_convolution_of_difference (1225-1286), normalized=True.  A sample is a value and its mask. *)
Definition elongated (n : nat) (long : list (onum * bool)) (j : nat) : onum * bool :=
  if (Nat.leb (n - 1) j && Nat.ltb j (length long + n - 1))%bool then nth (j - (n - 1)) long (None, true) else (Some 0%num, false).
Definition oabs (a : onum) : onum := option_map qabs a.
Definition shift_pairs (short long : list (onum * bool)) (i : nat) : list (onum * onum) :=
  flat_map (fun k => let s := nth k short (None, true) in let l := elongated (length short) long (i + k) in
                     if (snd l || snd s)%bool then [] else [(fst l, fst s)]) (seq 0 (length short)).
Definition shift_diff (short long : list (onum * bool)) (i : nat) : onum :=
  let ps := shift_pairs short long i in
  match ps with
  | [] => None
  | _ =>
    let n := Some (qn (length ps)) in
    let diff := odiv (osum (map (fun t => oabs (osub (fst t) (snd t))) ps)) n in
    let norm := odiv (osum (map (fun t => oabs (fst t)) ps)) n in
    match norm with Some r => if qeqb r 0%num then None else odiv diff norm | None => None end
  end.
Definition diff_convolution (p q : profile) : res profile :=
  raise UnitErr when (negb (dim_eqb (dim (pux p)) (dim (pux q)))) ;;
  raise ValueErr when (negb (unit_eqb (pux p) (pux q))) ;;
  raise UnitErr when (negb (dim_eqb (dim (puy p)) (dim (puy q)))) ;;
  raise ValueErr when (negb (unit_eqb (puy p) (puy q))) ;;
  raise IndexErr when (negb (aligned p && aligned q)) ;;
  raise IndexErr when (Nat.ltb (length (px q)) 2 || Nat.eqb (length (px p)) 0)%bool ;;
  let n := length (px q) + length (px p) - 1 in
  let ds := map (shift_diff (combine (yv p) (pm p)) (combine (yv q) (pm q))) (seq 0 n) in
  let dx := step0 (px q) in
  raise GenericErr when (qeqb dx 0%num) ;;
  let centre := (qn (n - 1) * dx / 2)%num in
  let delta := ((nths (px q) 0 + last (px q) (qz 0)) / 2 - (nths (px p) 0 + last (px p) (qz 0)) / 2)%num in
  prof_new (map (fun i => qn i * dx - centre + delta)%num (seq 0 n)) ds (Some (map isnan ds)) (pux p) (puy p).
(** min (379-396) *)
Definition prof_min (p : profile) : option num :=
  match map snd (valid_pts p) with [] => None | l => Some (lmin l) end.
(** ** get_dephasage (1198-1223), conv='difference'.  The minimum is None when everything is masked: TypeError. *)
Definition get_dephasage (p q : profile) : res onum :=
  let* c := diff_convolution p q in
  match prof_min c with
  | None => Err TypeErr
  | Some m =>
    let* l := value_position c m false in
    match l with [] => Err IndexErr | a :: _ => Ok a end
  end.

(** ** remove_marginal_values (1875-1895).  [beyond d f v] stands for d > f * sqrt(v), with v >= 0: the square root is removed
    by squaring.  The values masked by the last assignment stay in the stored array until the next reading. *)
Definition beyond (d f v : num) : bool :=
  if qleb 0%num f then (qltb 0%num d && qltb (f * f * v)%num (d * d)%num)%bool
  else (qltb 0%num d || qltb (d * d)%num (f * f * v)%num)%bool.
Definition pvariance (l : list num) (mu : num) : num := (Num.qsum (map (fun v => (v - mu) * (v - mu))%num l) / qn (length l))%num.
Definition remove_marginal (p : profile) (fact : num) : res profile :=
  raise IndexErr when (negb (aligned p)) ;;
  raise TypeErr when (forallb (fun b => b) (pm p)) ;;
  if existsb (fun t => (isnan (fst t) && negb (snd t))%bool) (combine (yv p) (pm p)) then Ok (mkprof (px p) (yv p) (pm p) (pux p) (puy p))
  else
    let ys := map snd (valid_pts p) in
    let mu := mean ys in let s2 := pvariance ys mu in
    let low := map (fun y => match y with Some v => beyond (mu - v)%num fact s2 | None => false end) (yv p) in
    let m1 := map (fun t => orb (fst t) (snd t)) (combine (pm p) low) in
    let y1 := nan_at m1 (yv p) in
    let high := map (fun y => match y with Some v => beyond (v - mu)%num fact s2 | None => false end) y1 in
    Ok (mkprof (px p) y1 (map (fun t => orb (fst t) (snd t)) (combine m1 high)) (pux p) (puy p)).

(** ** remove_doublons (1827-1856).  [rnd] is the rounding of numpy.round at the number of decimals of line 1841.  An empty profile
    raises at int(nan), a profile whose abscissae are all null at int(-inf). *)
Inductive dmethod := DAverage | DMin | DMax | DOther.
Definition omin_l (l : list onum) : onum := fold_right (fun a b => match a, b with Some x, Some y => Some (qmin x y) | _, _ => None end) (nth 0 l None) l.
Definition omax_l (l : list onum) : onum := fold_right (fun a b => match a, b with Some x, Some y => Some (qmax x y) | _, _ => None end) (nth 0 l None) l.
Definition merge (m : dmethod) (l : list onum) : res onum :=
  match m with
  | DAverage => Ok (odiv (osum l) (Some (qn (length l))))
  | DMin => Ok (omin_l l)
  | DMax => Ok (omax_l l)
  | DOther => Err ValueErr
  end.
Definition remove_doublons (rnd : num -> num) (p : profile) (m : dmethod) : pout :=
  if Nat.eqb (length (px p)) 0 then (p, Some ValueErr)
  else if forallb (fun x => qeqb x 0%num) (px p) then (p, Some GenericErr)
  else if negb (aligned p) then (p, Some IndexErr)
  else
    let tx := map rnd (px p) in
    let nx := unique tx in
    match mapM (fun x => merge m (map snd (filter (fun t => qeqb (fst t) x) (combine tx (yv p))))) nx with
    | Err e => (p, Some e)
    | Ok ny => thenp (set_y p ny) (fun p1 => set_x p1 nx)
    end.

(** ** evenly_space (1708-1752), linear interpolation.  Division of the length by a null step raises. *)
Definition linspace (a b : num) (n : nat) : list num := map (fun i => (a + qn i * ((b - a) / qn n))%num) (seq 0 (S n)).
Definition in_range (xs : list num) (v : num) : bool := (qleb (nths xs 0) v && qleb v (last xs (qz 0)))%bool.
Definition evenly_space (p : profile) (dx : option num) : res profile :=
  raise IndexErr when (Nat.ltb (length (px p)) 2) ;;
  if evenly (px p) then Ok p
  else
    raise IndexErr when (negb (aligned p)) ;;
    let step := match dx with None => mean (diffs (px p)) | Some d => d end in
    let a := lmin (px p) in let b := lmax (px p) in
    raise ValueErr when (qeqb step 0%num) ;;
    let k := qfloor ((b - a) / step)%num in
    (* a negative quotient is truncated to 0 at most: the lengths of the new arrays differ *)
    raise ValueErr when (k <? 1)%Z ;;
    let nx := linspace a b (Z.to_nat k) in
    let v := valid_pts p in
    raise ValueErr when (Nat.ltb (length v) 2) ;;
    let xs := map fst v in let ys := map snd v in
    let inner := slice 1 (length nx - 1) nx in
    raise ValueErr when (negb (forallb (in_range xs) inner)) ;;
    prof_new nx (hd None (yv p) :: map (fun x => Some (interp1d xs ys x)) inner ++ [last (yv p) None]) None (pux p) (puy p).

(** ** augment_resolution (1619-1673), linear interpolation, inplace=True *)
Definition augment_resolution (p : profile) (fact : Z) : pout :=
  if (fact <=? 0)%Z then (p, Some TypeErr)
  else
    thenp (crop_masked_in p) (fun q =>
      let k := Z.to_nat fact in
      let n := length (px q) in
      let old := map (fun i => qn (i * k)) (seq 0 n) in
      let new := map qn (seq 0 (S ((n - 1) * k))) in
      let filt := map negb (pm q) in
      let xi := keep filt old in
      let v := valid_pts q in
      if Nat.ltb (length v) 2 then (q, Some ValueErr)
      else
        let nx := map (interp1d xi (map fst v)) new in
        let ny := map (fun i => Some (interp1d xi (map snd v) i)) new in
        thenp (set_y q ny) (fun q1 => thenp (set_x q1 nx) (fun q2 => set_pmask q2 (repeat false (length nx))))).
