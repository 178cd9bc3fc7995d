(** * PropProfile: the properties C22 to C27, C66, C67 and the profile part of C08.
    Statements only; the proofs are in ProfileProofs*.v.  The vocabulary is in ProfileSpec (and FieldSpec). *)
From Verif Require Import Num Res ListLib SortLib Arr FieldModel ScalarFieldModel FieldSpec Concrete ProfileModel ProfileSpec ProfileProofs ProfileProofs2 ProfileProofs3 ProfileProofs4 ProfileProofs5.

(** four points, the second one masked *)
Definition ex_prof : profile := mkprof (zs [0; 1; 3; 4]%Z) [oz 1; None; oz 2; oz 5] [false; true; false; false] metre second.
Ltac nondec := apply increasing_nondecreasing; incr.
Lemma ex_prof_ok : prof_ok ex_prof.
Proof. repeat split. nondec. Qed.
Lemma ex_prof_clean : prof_clean ex_prof.
Proof. intros t Ht. simpl in Ht. repeat (destruct Ht as [<-|Ht]; [reflexivity|]). contradiction. Qed.

(** ** C22 *)
Theorem C22_construction x y mask u w :
  length x = length y -> match mask with None => True | Some m => length m = length x end ->
  exists p, prof_new x y mask u w = Ok p /\ prof_ok p /\ pux p = u /\ puy p = w /\
    Permutation (samples p) (map (fun t => (sx t, (if smask t then None else sy t), (smask t || isnan (sy t))%bool))
                              (zip3 x y (match mask with None => repeat false (length x) | Some m => m end))) /\
    (nondecreasing x -> px p = x /\ samples p = map (fun t => (sx t, (if smask t then None else sy t), (smask t || isnan (sy t))%bool))
                              (zip3 x y (match mask with None => repeat false (length x) | Some m => m end))).
Proof. exact (new_lemma x y mask u w). Qed.
Print Assumptions C22_construction.

Theorem C22_step_partial p o :
  prof_ok p -> legal p o -> good_op o ->
  let (p', e) := pstep p o in
  prof_ok p' /\ match e with None => effect p o p' | Some _ => p' = p end.
Proof. exact (step_lemma p o). Qed.
Print Assumptions C22_step_partial.

Theorem C22_history_partial ops :
  forall p, prof_ok p -> legal_run p ops -> Forall good_op ops -> prof_ok (prun p ops).
Proof. exact (run_lemma ops). Qed.
Print Assumptions C22_history_partial.

(** an assignment of the wrong length raises, but x is already replaced *)
Theorem C22_wrong_length_refuted : exists p v, prof_ok p /\ snd (pstep p (PSetX v)) <> None /\
  length (px (fst (pstep p (PSetX v)))) <> length (py (fst (pstep p (PSetX v)))).
Proof. exists ex_prof, (zs [0]%Z). split; [exact ex_prof_ok|]. split; vm_compute; discriminate. Qed.
Print Assumptions C22_wrong_length_refuted.
Example C22_example : prof_ok ex_prof /\ legal_run ex_prof [PAdd (qz 2) (oz 7); PRemove 0%Z; PSetX (zs [5; 1; 2; 2]%Z); PScale (SNum (qz (-1))) SNone; PCropInd 1 3; PRemoveNans]
  /\ Forall good_op [PAdd (qz 2) (oz 7); PRemove 0%Z; PSetX (zs [5; 1; 2; 2]%Z); PScale (SNum (qz (-1))) SNone; PCropInd 1 3; PRemoveNans].
Proof. split; [exact ex_prof_ok|]. split; [vm_compute; tauto|]. repeat constructor. Qed.

(** ** C23 *)
Theorem C23_crop_partial p a b :
  prof_ok p -> increasing (px p) -> px p <> [] -> (a < b)%num ->
  (a <= nths (px p) 0)%num \/ In a (px p) -> (nths (px p) 0 < b)%num -> (b <= nths (px p) (length (px p) - 1))%num ->
  (exists p', prof_crop p (Some (a, b)) None = Ok p' /\ samples p' = map shown (filter (x_in a b) (samples p)) /\ pux p' = pux p /\ puy p' = puy p) /\
  (exists p', pstep p (PCrop (Some (a, b)) None) = (p', None) /\ samples p' = filter (x_in a b) (samples p) /\ pux p' = pux p /\ puy p' = puy p).
Proof. exact (crop_exact p a b). Qed.
Print Assumptions C23_crop_partial.

Theorem C23_index_crop p i j :
  prof_ok p -> (0 <= i)%Z -> (i < j)%Z -> (j <= Z.of_nat (length (px p)))%Z ->
  (exists p', prof_crop_ind p i j = Ok p' /\ samples p' = map shown (slice (Z.to_nat i) (Z.to_nat j) (samples p)) /\ pux p' = pux p /\ puy p' = puy p) /\
  (exists p', pstep p (PCropInd i j) = (p', None) /\ samples p' = slice (Z.to_nat i) (Z.to_nat j) (samples p)).
Proof. exact (crop_index p i j). Qed.
Print Assumptions C23_index_crop.

Theorem C23_index_crop_errors p i j :
  prof_ok p -> (j <= i)%Z \/ (i < 0)%Z \/ (j < 0)%Z \/ (Z.of_nat (length (px p)) < i)%Z \/ (Z.of_nat (length (px p)) < j)%Z ->
  prof_crop_ind p i j = Err ValueErr.
Proof. exact (crop_index_err p i j). Qed.
Print Assumptions C23_index_crop_errors.

Theorem C23_outside p a b :
  prof_ok p -> px p <> [] -> (a < b)%num ->
  (forall x, In x (px p) -> (b < x)%num) \/ (forall x, In x (px p) -> (x < a)%num) ->
  prof_crop p (Some (a, b)) None = Err ValueErr /\ pstep p (PCrop (Some (a, b)) None) = (p, Some ValueErr).
Proof. exact (crop_outside p a b). Qed.
Print Assumptions C23_outside.

Theorem C23_reversed p a b ivy :
  (b <= a)%num -> prof_crop p (Some (a, b)) ivy = Err ValueErr.
Proof. exact (crop_reversed p a b ivy). Qed.
Print Assumptions C23_reversed.

(** a point of the interval is lost, and a point outside it is kept *)
Theorem C23_lost_point_refuted : exists p a b p' t, prof_ok p /\ increasing (px p) /\ (a < b)%num /\
  prof_crop p (Some (a, b)) None = Ok p' /\ In t (samples p) /\ (a <= sx t <= b)%num /\ ~ In (sx t) (px p').
Proof.
  exists ex_prof, (qq 1 2), (qz 4). eexists. exists (qz 1, None, true). split; [exact ex_prof_ok|]. split; [incr|]. split; [reflexivity|]. split; [reflexivity|].
  split; [simpl; tauto|]. split; [split; discriminate|]. intros H. simpl in H. destruct H as [H|[H|[]]]; apply (f_equal this) in H; vm_compute in H; discriminate.
Qed.
Print Assumptions C23_lost_point_refuted.
Theorem C23_outside_point_refuted : exists p a b p' x, prof_ok p /\ increasing (px p) /\ (a < b)%num /\
  prof_crop p (Some (a, b)) None = Ok p' /\ In x (px p') /\ ~ (a <= x <= b)%num.
Proof.
  exists ex_prof, (qq 1 2), (qz 1). eexists. exists (qz 0). split; [exact ex_prof_ok|]. split; [incr|]. split; [reflexivity|]. split; [reflexivity|].
  split; [simpl; tauto|]. intros [H _]. apply qleb_le in H. vm_compute in H. discriminate.
Qed.
Print Assumptions C23_outside_point_refuted.
Example C23_example : prof_ok ex_prof /\ increasing (px ex_prof) /\ In (qz 1) (px ex_prof) /\ (nths (px ex_prof) 0 < qq 7 2)%num /\ (qq 7 2 <= nths (px ex_prof) (length (px ex_prof) - 1))%num.
Proof. split; [exact ex_prof_ok|]. split; [incr|]. split; [simpl; tauto|]. split; [reflexivity|discriminate]. Qed.

(** ** C24 *)
Theorem C24_node p i :
  prof_ok p -> increasing (px p) -> i < length (px p) -> interp_x p (nths (px p) i) = [nth i (yv p) None].
Proof. exact (interp_node p i). Qed.
Print Assumptions C24_node.

Theorem C24_between : forall p i v, prof_ok p -> increasing (px p) -> S i < length (px p) -> (nths (px p) i < v < nths (px p) (S i))%num ->
  match nth i (yv p) None, nth (S i) (yv p) None with
  | Some a, Some b => exists r, interp_x p v = [Some r] /\ interpolates (nths (px p) i) a (nths (px p) (S i)) b v r
  | _, _ => interp_x p v = [None]
  end.
Proof.
  intros p i v OK INC Hl V. pose proof (interp_between p i v OK INC Hl V) as E.
  destruct (nth i (yv p) None) as [a|]; [|exact E]. destruct (nth (S i) (yv p) None) as [b|]; [|exact E].
  eexists. split; [exact E|]. now apply interp_bound.
Qed.
Print Assumptions C24_between.
Theorem C24_outside p v :
  prof_ok p -> increasing (px p) -> (forall x, In x (px p) -> (v < x)%num) \/ (forall x, In x (px p) -> (x < v)%num) -> interp_x p v = [].
Proof. exact (interp_outside p v). Qed.
Print Assumptions C24_outside.

Theorem C24_array : forall p vs k v, prof_ok p -> increasing (px p) -> nth_error vs k = Some v ->
  (forall i, i < length (px p) -> v = nths (px p) i -> nth_error (interp_x_array p vs) k = Some (nth i (yv p) None)) /\
  ((forall x, In x (px p) -> (v < x)%num) \/ (forall x, In x (px p) -> (x < v)%num) -> nth_error (interp_x_array p vs) k = Some None).
Proof.
  intros p vs k v OK INC E. unfold interp_x_array. rewrite nth_error_map', E. cbn [option_map]. split.
  - intros i Hi ->. now rewrite interp_node.
  - intro H. now rewrite interp_outside.
Qed.
Print Assumptions C24_array.
Example C24_example : (nths (px ex_prof) 2 < qq 7 2 < nths (px ex_prof) 3)%num /\ interp_x ex_prof (qq 7 2) = [Some (qq 7 2)].
Proof. split; [split; reflexivity|]. vm_compute. repeat f_equal; try qc. Qed.

(** ** C25 *)
Theorem C25_same_scale_partial p q :
  prof_ok p -> prof_ok q -> px p = px q -> dim (pux p) = dim (pux q) -> dim (puy p) = dim (puy q) ->
  sc (puy p) = sc (puy q) -> good_unit (puy p) ->
  exists r, prof_add p q = Ok r /\ prof_ok r /\ px r = px p /\ pux r = pux p /\ puy r = puy p /\
    samples r = map (fun st => (sx (fst st), oadd (sy (fst st)) (sy (snd st)), isnan (oadd (sy (fst st)) (sy (snd st))) || smask (fst st) || smask (snd st))%bool) (combine (samples p) (samples q)) /\
    forall i, i < length (px p) -> osum_phys (nth i (yv r) None) (puy r) (nth i (yv p) None) (puy p) (nth i (yv q) None) (puy q).
Proof. exact (add_lemma p q). Qed.
Print Assumptions C25_same_scale_partial.

Theorem C25_incompatible p q :
  dim (pux p) <> dim (pux q) \/ dim (puy p) <> dim (puy q) \/ px p <> px q -> prof_add p q = Err ValueErr.
Proof. exact (add_errors p q). Qed.
Print Assumptions C25_incompatible.

Theorem C25_scales_refuted : exists p q r, prof_ok p /\ prof_ok q /\ px p = px q /\ dim (pux p) = dim (pux q) /\ dim (puy p) = dim (puy q) /\
  good_unit (puy p) /\ good_unit (puy q) /\ prof_add p q = Ok r /\
  ~ osum_phys (nth 0 (yv r) None) (puy r) (nth 0 (yv p) None) (puy p) (nth 0 (yv q) None) (puy q).
Proof.
  exists ex_prof, (mkprof (zs [0; 1; 3; 4]%Z) [oz 1; oz 1; oz 2; oz 5] [false; false; false; false] metre millisecond). eexists.
  split; [exact ex_prof_ok|]. split; [repeat split; nondec|]. split; [reflexivity|]. split; [reflexivity|]. split; [reflexivity|]. split; [reflexivity|]. split; [reflexivity|]. split; [reflexivity|].
  intros (z & H1 & H2). match type of H1 with ?l = _ => assert (E : l = oz 1001) by (vm_compute; f_equal; try qc) end.
  rewrite E in H1. injection H1 as <-. apply (f_equal this) in H2. vm_compute in H2. discriminate.
Qed.
Print Assumptions C25_scales_refuted.
Example C25_example : exists r, prof_add ex_prof ex_prof = Ok r /\ nth 2 (yv r) None = oz 4.
Proof. eexists. split; [reflexivity|]. vm_compute. f_equal; try qc. Qed.

(** ** C26, for profiles *)
Theorem C26_profile_div_partial p q r q' :
  prof_ok q -> prof_div p q = Ok (r, q') -> (forall t, In t (samples q) -> sy t <> Some 0%num) -> q' = q.
Proof. exact (div_keeps p q r q'). Qed.
Print Assumptions C26_profile_div_partial.

Theorem C26_profile_div_refuted : exists p q r q', prof_ok p /\ prof_ok q /\ prof_div p q = Ok (r, q') /\ nth 0 (yv q') None <> nth 0 (yv q) None.
Proof.
  exists ex_prof, (mkprof (zs [0; 1; 3; 4]%Z) [oz 0; oz 1; oz 2; oz 5] [false; false; false; false] metre second). eexists. eexists.
  split; [exact ex_prof_ok|]. split; [repeat split; nondec|]. split; [reflexivity|]. intro H. apply (f_equal (fun o => match o with Some v => qeqb v 0%num | None => true end)) in H. vm_compute in H. discriminate.
Qed.
Print Assumptions C26_profile_div_refuted.
Example C26_profile_example : exists r, prof_div ex_prof ex_prof = Ok (r, ex_prof) /\ nth 2 (yv r) None = oz 1.
Proof. eexists. split; [reflexivity|]. vm_compute. f_equal; try qc. Qed.

(** ** C27 *)
Theorem C27_area p :
  prof_ok p -> get_integral p = area (unmasked (samples p)).
Proof. exact (integral_area p). Qed.
Print Assumptions C27_area.

Theorem C27_additive p k :
  prof_ok p -> prof_clean p -> k < length (px p) -> nth k (pm p) true = false ->
  exists p1 p2, prof_crop_ind p 0 (Z.of_nat (k + 1)) = Ok p1 /\ prof_crop_ind p (Z.of_nat k) (Z.of_nat (length (px p))) = Ok p2 /\
    get_integral p = oadd (get_integral p1) (get_integral p2).
Proof. exact (integral_split p k). Qed.
Print Assumptions C27_additive.

Theorem C27_homogeneous p c :
  prof_ok p -> prof_clean p ->
  exists r, prof_mul_num p c = Ok r /\ get_integral r = oscale c (get_integral p).
Proof. exact (integral_scale p c). Qed.
Print Assumptions C27_homogeneous.

Theorem C27_sum p q :
  prof_ok p -> prof_ok q -> prof_clean p -> prof_clean q -> px p = px q -> pm p = pm q ->
  dim (pux p) = dim (pux q) -> dim (puy p) = dim (puy q) -> sc (puy p) = sc (puy q) -> good_unit (puy p) ->
  exists r, prof_add p q = Ok r /\ get_integral r = oadd (get_integral p) (get_integral q).
Proof. exact (integral_add p q). Qed.
Print Assumptions C27_sum.

Theorem C27_bounds p lo hi x0 y0 r :
  prof_ok p -> prof_clean p -> unmasked (samples p) = (x0, y0) :: r ->
  (forall t v, In t (samples p) -> sy t = Some v -> (lo <= v <= hi)%num) ->
  exists s, get_integral p = Some s /\ (lo * (last (map fst (unmasked (samples p))) 0 - x0) <= s <= hi * (last (map fst (unmasked (samples p))) 0 - x0))%num.
Proof. exact (integral_bound p lo hi x0 y0 r). Qed.
Print Assumptions C27_bounds.

Example C27_example : prof_ok ex_prof /\ prof_clean ex_prof /\ nth 2 (pm ex_prof) true = false /\ get_integral ex_prof = Some (qz 8) /\ length (unmasked (samples ex_prof)) = 3.
Proof. split; [exact ex_prof_ok|]. split; [exact ex_prof_clean|]. repeat split. vm_compute. f_equal; try qc. Qed.

(** ** C08 for profiles *)
Theorem C08_profile_x p new :
  prof_ok p -> good_unit (pux p) -> good_unit new -> dim (pux p) = dim new ->
  exists p', pstep p (PUnit AxX new) = (p', None) /\ prof_ok p' /\ pux p' = new /\ puy p' = puy p /\ yv p' = yv p /\ pm p' = pm p /\
    length (px p') = length (px p) /\ forall i, i < length (px p) -> (nths (px p') i * sc new = nths (px p) i * sc (pux p))%num.
Proof. exact (change_unit_x p new). Qed.
Print Assumptions C08_profile_x.

Theorem C08_profile_y p new :
  prof_ok p -> good_unit new -> dim (puy p) = dim new ->
  exists p', pstep p (PUnit AxY new) = (p', None) /\ prof_ok p' /\ puy p' = new /\ pux p' = pux p /\ px p' = px p /\ length (yv p') = length (yv p) /\
    forall i, i < length (px p) -> oeq_phys (nth i (yv p') None) new (nth i (yv p) None) (puy p).
Proof. exact (change_unit_y p new). Qed.
Print Assumptions C08_profile_y.

Theorem C08_profile_incompatible p a new :
  good_unit new ->
  (match a with AxX => dim (pux p) <> dim new | AxY => dim (puy p) <> dim new | _ => True end) ->
  pstep p (PUnit a new) = (p, Some (match a with AxX | AxY => UnitErr | _ => ValueErr end)).
Proof. exact (change_unit_bad p a new). Qed.
Print Assumptions C08_profile_incompatible.

Example C08_profile_example : exists p', pstep ex_prof (PUnit AxX millimetre) = (p', None) /\ nths (px p') 1 = qz 1000.
Proof. eexists. split; [reflexivity|]. vm_compute. qc. Qed.

(** ** C66: filling *)
Theorem C66_linear_fill_partial p fv :
  prof_ok p -> increasing (px p) -> prof_clean p -> existsb (fun b => b) (pm p) = true -> 2 <= length (unmasked (samples p)) ->
  exists p', prof_fill p FLinear fv = Ok p' /\ prof_ok p' /\ px p' = px p /\ pux p' = pux p /\ puy p' = puy p /\
    (forall t, In t (samples p') -> smask t = false) /\
    (forall t, In t (samples p) -> smask t = false -> In t (samples p')) /\
    (forall A xj yj M1 x y M2 xk yk B, samples p = A ++ (xj, Some yj, false) :: M1 ++ (x, y, true) :: M2 ++ (xk, Some yk, false) :: B -> all_masked M1 -> all_masked M2 ->
        exists r, In (x, Some r, false) (samples p') /\ interpolates xj yj xk yk x r) /\
    (forall M1 x y M2 xf yf B, samples p = M1 ++ (x, y, true) :: M2 ++ (xf, yf, false) :: B -> all_masked M1 -> all_masked M2 -> In (x, yf, false) (samples p')) /\
    (forall A xl yl M1 x y M2, samples p = A ++ (xl, yl, false) :: M1 ++ (x, y, true) :: M2 -> all_masked M1 -> all_masked M2 -> In (x, yl, false) (samples p')).
Proof. exact (fill_final p fv). Qed.
Print Assumptions C66_linear_fill_partial.

Theorem C66_nothing_to_fill p fv :
  prof_ok p -> (forall t, In t (samples p) -> smask t = false) -> prof_fill p FLinear fv = Ok p.
Proof. exact (fill_nothing_api p fv). Qed.
Print Assumptions C66_nothing_to_fill.

Theorem C66_value_fill_refuted : exists p fv p' t, prof_ok p /\ prof_clean p /\ prof_fill p FValue fv = Ok p' /\ In t (samples p) /\ smask t = false /\
  ~ In t (samples p') /\ exists u, In u (samples p') /\ smask u = true.
Proof.
  exists ex_prof, (qz 9). eexists. exists (qz 0, oz 1, false). split; [exact ex_prof_ok|]. split; [exact ex_prof_clean|]. split; [reflexivity|]. split; [simpl; tauto|]. split; [reflexivity|]. split.
  - intro H. apply (in_map (fun t : sample => match sy t with Some v => qeqb v 1%num | None => false end)) in H. vm_compute in H. intuition discriminate.
  - exists (qz 1, None, true). split; [vm_compute; right; left; reflexivity|reflexivity].
Qed.
Print Assumptions C66_value_fill_refuted.
Example C66_example : prof_ok ex_prof /\ increasing (px ex_prof) /\ prof_clean ex_prof /\ existsb (fun b => b) (pm ex_prof) = true /\ 2 <= length (unmasked (samples ex_prof)) /\
  exists p', prof_fill ex_prof FLinear 0%num = Ok p' /\ nth 1 (yv p') None = Some (qq 4 3).
Proof.
  split; [exact ex_prof_ok|]. split; [incr|]. split; [exact ex_prof_clean|]. split; [reflexivity|]. split; [vm_compute; lia|]. eexists. split; [reflexivity|]. vm_compute. f_equal; try qc.
Qed.

(** ** C67: inverse lookup *)
Theorem C67_crossings_partial p v :
  prof_ok p -> increasing (px p) -> (forall t, In t (samples p) -> sy t <> Some v) ->
  (forall i a b, S i < length (px p) -> nth i (yv p) None = Some a -> nth (S i) (yv p) None = Some b -> (a < v < b)%num \/ (b < v < a)%num ->
     exists r, In (Some r) (interp_y p v) /\ (nths (px p) i < r < nths (px p) (S i))%num /\ on_line a b v (nths (px p) i) (nths (px p) (S i)) r) /\
  (forall o, In o (interp_y p v) -> exists i a b r, o = Some r /\ S i < length (px p) /\ nth i (yv p) None = Some a /\ nth (S i) (yv p) None = Some b /\
     ((a < v < b)%num \/ (b < v < a)%num) /\ on_line a b v (nths (px p) i) (nths (px p) (S i)) r).
Proof. exact (inverse_lemma p v). Qed.
Print Assumptions C67_crossings_partial.

Theorem C67_exact_values p v :
  prof_ok p -> (exists t, In t (samples p) /\ sy t = Some v) ->
  interp_y p v = map Some (map sx (filter (fun t => match sy t with Some w => qeqb w v | None => false end) (samples p))).
Proof. exact (inverse_exact p v). Qed.
Print Assumptions C67_exact_values.

Theorem C67_missed_crossing_refuted : exists p v i a b, prof_ok p /\ increasing (px p) /\ S i < length (px p) /\ nth i (yv p) None = Some a /\ nth (S i) (yv p) None = Some b /\
  (a < v < b)%num /\ (forall r, In (Some r) (interp_y p v) -> ~ (nths (px p) i < r < nths (px p) (S i))%num).
Proof.
  exists (mkprof (zs [0; 1; 2]%Z) [oz 2; oz 0; oz 4] [false; false; false] metre metre), (qz 2), 1, (qz 0), (qz 4).
  split; [repeat split; nondec|]. split; [incr|]. split; [simpl; lia|]. split; [reflexivity|]. split; [reflexivity|]. split; [split; reflexivity|].
  intros r H [H1 H2]. vm_compute in H. destruct H as [H|[]]. injection H as <-. apply qltb_lt in H1. vm_compute in H1. discriminate.
Qed.
Print Assumptions C67_missed_crossing_refuted.
Example C67_example : (forall t, In t (samples ex_prof) -> sy t <> oz 3) /\ interp_y ex_prof (qz 3) = [Some (qq 10 3)].
Proof.
  split; [|vm_compute; repeat f_equal; try qc]. intros t Ht E. apply (in_map (fun t : sample => match sy t with Some v => qeqb v (qz 3) | None => false end)) in Ht. rewrite E in Ht. vm_compute in Ht. intuition discriminate.
Qed.
