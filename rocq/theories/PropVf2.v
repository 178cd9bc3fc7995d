(** * PropVf2: the properties C161 to C167: sums, products, equality, cropping, import and reduction of vector fields.
    Statements only; the proofs are in Vf2Proofs*.v.  The vocabulary is in Vf2Spec, SpatialSpec and FieldSpec. *)
From Coq Require Import Lia QArith Qcanon List ZArith.
From Verif Require Import Num Res ListLib Arr FieldModel ScalarFieldModel VectorFieldModel FieldSpec Concrete TemporalEx
  AsciiModel TemporalModel SpatialModel SpatialSpec Vf2Model Vf2Spec Vf2Proofs Vf2Proofs2 Vf2Proofs3 Vf2Proofs4.

(** ** C161 *)
Theorem C161_same_axes_partial f h :
  vcompatible f h -> good_unit (vuv f) -> vf_wf f -> vf_wf h -> vf_tidy f -> vf_tidy h -> grid_sorted (vg f) ->
  ax (vg f) = ax (vg h) -> ay (vg f) = ay (vg h) ->
  exists s, vf_add f h = Ok s /\ vg s = vg f /\ vuv s = vuv f /\ vf_wf s /\ vf_tidy s /\ shows_sum f h s.
Proof. exact (vf_sum_same f h). Qed.
Print Assumptions C161_same_axes_partial.

Theorem C161_common_part_partial f h :
  vcompatible f h -> good_unit (vuv f) -> vf_wf f -> vf_wf h -> vf_tidy f -> vf_tidy h -> grid_sorted (vg f) -> grid_sorted (vg h) ->
  (ax (vg f) <> ax (vg h) \/ ay (vg f) <> ay (vg h)) ->
  well_apart (ax (vg f)) (ax (vg h)) -> well_apart (ay (vg f)) (ay (vg h)) ->
  no_common_zero (ax (vg f)) (ax (vg h)) -> no_common_zero (ay (vg f)) (ay (vg h)) ->
  two_common (ax (vg f)) (ax (vg h)) -> two_common (ay (vg f)) (ay (vg h)) ->
  exists s, vf_add f h = Ok s /\ vuv s = vuv f /\ ux (vg s) = ux (vg f) /\ uy (vg s) = uy (vg f) /\ vf_wf s /\ vf_tidy s /\ grid_sorted (vg s) /\
    (forall x, In x (ax (vg s)) <-> In x (ax (vg f)) /\ In x (ax (vg h))) /\
    (forall y, In y (ay (vg s)) <-> In y (ay (vg f)) /\ In y (ay (vg h))) /\ shows_sum f h s.
Proof. exact (vf_sum_diff f h). Qed.
Print Assumptions C161_common_part_partial.

Theorem C161_difference_partial f h :
  vcompatible f h -> good_unit (vuv f) -> vf_wf f -> vf_wf h -> vf_tidy f -> vf_tidy h -> grid_sorted (vg f) ->
  ax (vg f) = ax (vg h) -> ay (vg f) = ay (vg h) ->
  exists s, vf_sub f h = Ok s /\ vg s = vg f /\ vuv s = vuv f /\ vf_wf s /\ vf_tidy s /\ shows_difference f h s.
Proof. exact (vf_difference_same f h). Qed.
Print Assumptions C161_difference_partial.

Theorem C161_difference_common_part_partial f h :
  vcompatible f h -> good_unit (vuv f) -> vf_wf f -> vf_wf h -> vf_tidy f -> vf_tidy h -> grid_sorted (vg f) -> grid_sorted (vg h) ->
  (ax (vg f) <> ax (vg h) \/ ay (vg f) <> ay (vg h)) ->
  well_apart (ax (vg f)) (ax (vg h)) -> well_apart (ay (vg f)) (ay (vg h)) ->
  no_common_zero (ax (vg f)) (ax (vg h)) -> no_common_zero (ay (vg f)) (ay (vg h)) ->
  two_common (ax (vg f)) (ax (vg h)) -> two_common (ay (vg f)) (ay (vg h)) ->
  exists s, vf_sub f h = Ok s /\ vuv s = vuv f /\ ux (vg s) = ux (vg f) /\ uy (vg s) = uy (vg f) /\ vf_wf s /\ vf_tidy s /\ grid_sorted (vg s) /\
    (forall x, In x (ax (vg s)) <-> In x (ax (vg f)) /\ In x (ax (vg h))) /\
    (forall y, In y (ay (vg s)) <-> In y (ay (vg f)) /\ In y (ay (vg h))) /\ shows_difference f h s.
Proof. exact (vf_difference_diff f h). Qed.
Print Assumptions C161_difference_common_part_partial.

Theorem C161_incompatible_partial f h :
  ~ vcompatible f h -> vf_add f h = Err ValueErr.
Proof. exact (vf_sum_incompatible f h). Qed.
Print Assumptions C161_incompatible_partial.

Theorem C161_disjoint_partial f h :
  grid_sorted (vg f) -> grid_sorted (vg h) -> vcompatible f h -> good_unit (vuv f) ->
  (ax (vg f) <> ax (vg h) \/ ay (vg f) <> ay (vg h)) ->
  well_apart (ax (vg f)) (ax (vg h)) -> well_apart (ay (vg f)) (ay (vg h)) ->
  ((forall x, In x (ax (vg f)) -> ~ In x (ax (vg h))) \/ (forall y, In y (ay (vg f)) -> ~ In y (ay (vg h)))) -> vf_add f h = Err ValueErr.
Proof. exact (vf_sum_disjoint f h). Qed.
Print Assumptions C161_disjoint_partial.

Definition sq22 : list (list onum) := [[oz 1; oz 2]; [oz 3; oz 4]].
Definition sq32 : list (list onum) := [[oz 1; oz 2]; [oz 3; oz 4]; [oz 5; oz 6]].
Definition sq42 : list (list onum) := [[oz 1; oz 2]; [oz 3; oz 4]; [oz 5; oz 6]; [oz 7; oz 8]].
Definition a3 : vfield := vf_of [1; 2; 3]%Z [1; 2]%Z sq32 sq32 [].
Definition a4 : vfield := vf_of [2; 3; 4; 5]%Z [1; 2]%Z [[oz 1; oz 2]; [oz 3; None]; [oz 5; oz 6]; [oz 7; oz 8]] [[oz 1; oz 2]; [oz 3; None]; [oz 5; oz 6]; [oz 7; oz 8]]
  [[false; false]; [false; true]; [false; false]; [false; false]].
Ltac tidy_cells := intros x y v w m (i & j & E1 & E2 & <- & <- & <-);
  let Li := fresh in let Lj := fresh in pose proof (nth_error_Some_lt _ _ _ E1) as Li; pose proof (nth_error_Some_lt _ _ _ E2) as Lj; cbn in Li, Lj;
  destruct i as [|[|[|[|i]]]]; destruct j as [|[|[|[|j]]]]; try lia; cbn; split; split; intro; (discriminate || reflexivity).
Ltac apart := intros p q Hp Hq N; cbn in Hp, Hq; repeat (destruct Hp as [<-|Hp]; [|]); try contradiction; repeat (destruct Hq as [<-|Hq]; [|]); try contradiction;
  try (exfalso; apply N; reflexivity); split; apply qleb_le; vm_compute; reflexivity.
Example C161_example : vcompatible a3 a4 /\ good_unit (vuv a3) /\ vf_wf a3 /\ vf_wf a4 /\ vf_tidy a3 /\ vf_tidy a4 /\ grid_sorted (vg a3) /\ grid_sorted (vg a4) /\
  well_apart (ax (vg a3)) (ax (vg a4)) /\ no_common_zero (ax (vg a3)) (ax (vg a4)) /\ two_common (ax (vg a3)) (ax (vg a4)) /\
  match vf_add a3 a4 with Ok s => oeqb (at_ (cx s) 0 1) (oz 6) && at_ (vmsk s) 1 1 && Nat.eqb (length (ax (vg s))) 2 | _ => false end = true.
Proof.
  split; [repeat split|]. split; [reflexivity|]. split; [repeat split|]. split; [repeat split|]. split; [tidy_cells|]. split; [tidy_cells|].
  split; [split; incr|]. split; [split; incr|]. split; [apart|]. split.
  - intros [H _]. cbn in H. repeat (destruct H as [H|H]; [apply (f_equal this) in H; vm_compute in H; discriminate|]). exact H.
  - split; [|vmr]. exists (qz 2), (qz 3). split; [discriminate|]. cbn. auto 10.
Qed.
(** a common coordinate 0 is lost *)
Definition z3 : vfield := vf_of [0; 1; 2]%Z [1; 2]%Z sq32 sq32 [].
Definition z4 : vfield := vf_of [0; 1; 2; 3]%Z [1; 2]%Z sq42 sq42 [].
Theorem C161_zero_refuted : exists f h s, vcompatible f h /\ vf_wf f /\ vf_wf h /\ vf_tidy f /\ vf_tidy h /\ grid_sorted (vg f) /\ grid_sorted (vg h) /\
  vf_add f h = Ok s /\ In (qz 0) (ax (vg f)) /\ In (qz 0) (ax (vg h)) /\ ~ In (qz 0) (ax (vg s)).
Proof.
  destruct (ok_ex (vf_add z3 z4) (fun s => match ax (vg s) with [a; b] => negb (qeqb a (qz 0)) && negb (qeqb b (qz 0)) | _ => false end)%bool) as (s & E & H); [vmr|].
  exists z3, z4, s. split; [repeat split|]. split; [repeat split|]. split; [repeat split|]. split; [tidy_cells|]. split; [tidy_cells|].
  split; [split; incr|]. split; [split; incr|]. split; [exact E|]. split; [now left|]. split; [now left|].
  destruct (ax (vg s)) as [|a [|b [|]]]; try discriminate. apply andb_true_iff in H. rewrite !negb_true_iff in H. destruct H as [A B]. apply qeqb_neq in A, B.
  intros [I|[I|[]]]; congruence.
Qed.
Print Assumptions C161_zero_refuted.
(** axes in metres and in millimetres are compared as bare numbers: vectors of different places are added *)
Definition mm3 : vfield := mkvf (mkgrid (zs [1; 2; 3]%Z) (zs [1; 2]%Z) millimetre millimetre) (cx a3) (cy a3) (vmsk a3) metre.
Theorem C161_scale_refuted : exists f h s x y v w, vcompatible f h /\ vf_wf f /\ vf_wf h /\ vf_add f h = Ok s /\ vf_shows s x y v w false /\
  forall x' y' v' w' m', (x' * sc (ux (vg h)))%num = (x * sc (ux (vg f)))%num -> ~ vf_shows h x' y' v' w' m'.
Proof.
  destruct (ok_ex (vf_add a3 mm3) (fun s => negb (at_ (vmsk s) 0 0) && match ax (vg s), ay (vg s) with a :: _, b :: _ => qeqb a (qz 1) && qeqb b (qz 1) | _, _ => false end)%bool) as (s & E & H); [vmr|].
  exists a3, mm3, s, (qz 1), (qz 1), (at_ (cx s) 0 0), (at_ (cy s) 0 0). split; [repeat split|]. split; [repeat split|]. split; [repeat split|]. split; [exact E|]. split.
  - apply andb_true_iff in H. destruct H as [M H]. apply negb_true_iff in M. exists 0, 0.
    destruct (ax (vg s)) as [|a X]; [discriminate|]. destruct (ay (vg s)) as [|b Y]; [discriminate|]. apply andb_true_iff in H. rewrite !qeqb_eq in H. destruct H as [-> ->]. repeat split. exact M.
  - intros x' y' v' w' m' Q (i & j & E1 & _). cbn in E1. destruct i as [|[|[|i]]]; cbn in E1; [| | |destruct i; discriminate];
      injection E1 as <-; apply (f_equal this) in Q; vm_compute in Q; discriminate.
Qed.
Print Assumptions C161_scale_refuted.
(** fields that share a single line *)
Theorem C161_one_line_refuted : exists f h x y v w v' w', vcompatible f h /\ vf_wf f /\ vf_wf h /\ vf_tidy f /\ vf_tidy h /\ grid_sorted (vg f) /\ grid_sorted (vg h) /\
  vf_shows f x y v w false /\ vf_shows h x y v' w' false /\ vf_add f h = Err IndexErr.
Proof.
  exists a3, (vf_of [3; 4; 5]%Z [1; 2]%Z sq32 sq32 []), (qz 3), (qz 1), (oz 5), (oz 5), (oz 1), (oz 1). split; [repeat split|]. split; [repeat split|]. split; [repeat split|].
  split; [tidy_cells|]. split; [tidy_cells|]. split; [split; incr|]. split; [split; incr|]. split; [exists 2, 0; repeat split|]. split; [exists 0, 0; repeat split|]. vmr.
Qed.
Print Assumptions C161_one_line_refuted.

(** ** C162 *)
Theorem C162_soft_partial f inplace :
  vf_wf f ->
  (exists i j, vcell_in f i j /\ at_ (vmsk f) i j = true) ->
  (exists i j, 0 < i /\ vcell_in f i j /\ at_ (vmsk f) i j = false) ->
  (exists i j, 0 < j /\ vcell_in f i j /\ at_ (vmsk f) i j = false) ->
  exists f', vf_crop_masked_border f false inplace = Ok (Some f') /\ vf_part f f' /\ vf_wf f' /\
    (grid_sorted (vg f) -> forall x y v w, vf_shows f x y v w false -> vf_shows f' x y v w false) /\
    (let n := length (ax (vg f')) in let m := length (ay (vg f')) in
     0 < n /\ 0 < m /\
     (exists j, j < m /\ at_ (vmsk f') 0 j = false) /\ (exists j, j < m /\ at_ (vmsk f') (n - 1) j = false) /\
     (exists i, i < n /\ at_ (vmsk f') i 0 = false) /\ (exists i, i < n /\ at_ (vmsk f') i (m - 1) = false)).
Proof. exact (vf_soft_api f inplace). Qed.
Print Assumptions C162_soft_partial.

Theorem C162_hard_partial f inplace :
  vf_wf f ->
  vf_crop_masked_border f true inplace <> Err OutOfFuel /\
  forall f', vf_crop_masked_border f true inplace = Ok (Some f') ->
    vf_part f f' /\ vf_wf f' /\ forall i j, vcell_in f' i j -> at_ (vmsk f') i j = false.
Proof. exact (vf_hard_api f inplace). Qed.
Print Assumptions C162_hard_partial.

Theorem C162_in_place_partial f hard :
  vf_wf f -> vf_crop_masked_border f hard true = vf_crop_masked_border f hard false.
Proof. exact (vf_crop_inplace f hard). Qed.
Print Assumptions C162_in_place_partial.

Definition m33 : vfield := vf_of [0; 1; 2]%Z [0; 1; 2]%Z [[None; None; None]; [None; oz 1; oz 2]; [None; oz 3; oz 4]] [[None; None; None]; [None; oz 5; oz 6]; [None; oz 7; oz 8]]
  [[true; true; true]; [true; false; false]; [true; false; false]].
Example C162_example : vf_wf m33 /\ (exists i j, vcell_in m33 i j /\ at_ (vmsk m33) i j = true) /\ (exists i j, 0 < i /\ vcell_in m33 i j /\ at_ (vmsk m33) i j = false) /\
  (exists i j, 0 < j /\ vcell_in m33 i j /\ at_ (vmsk m33) i j = false) /\
  match vf_crop_masked_border m33 true false with Ok (Some f') => Nat.eqb (length (ax (vg f'))) 2 | _ => false end = true.
Proof.
  split; [repeat split|]. split; [exists 0, 0; repeat split; cbn; lia|]. split; [exists 1, 1; repeat split; cbn; lia|]. split; [exists 1, 1; repeat split; cbn; lia|]. vmr.
Qed.
Theorem C162_unmasked_field_refuted : exists f, vf_wf f /\ (forall i j, vcell_in f i j -> at_ (vmsk f) i j = false) /\
  forall hard inplace, vf_crop_masked_border f hard inplace = Ok None.
Proof.
  exists a3. split; [repeat split|]. split; [|intros [] []; vmr]. intros i j [Hi Hj]. cbn in Hi, Hj. destruct i as [|[|[|i]]]; destruct j as [|[|j]]; try lia; reflexivity.
Qed.
Print Assumptions C162_unmasked_field_refuted.
Theorem C162_first_line_refuted : exists f x y v w, vf_wf f /\ vf_shows f x y v w false /\ forall hard inplace, vf_crop_masked_border f hard inplace = Err ValueErr.
Proof.
  exists (vf_of [0; 1]%Z [0; 1]%Z [[oz 0; oz 1]; [None; None]] [[oz 0; oz 1]; [None; None]] [[false; false]; [true; true]]), (qz 0), (qz 0), (oz 0), (oz 0).
  split; [repeat split|]. split; [exists 0, 0; repeat split|]. intros [] []; vmr.
Qed.
Print Assumptions C162_first_line_refuted.

(** ** C163 *)
Theorem C163_plus_number_partial f c :
  vf_wf f -> vf_tidy f -> exists r, vf_add_num f c = Ok r /\ vuv r = vuv f /\
  acts f r same_mask (fun _ _ a b a' b' => (a' = a + c)%num /\ (b' = b + c)%num).
Proof. exact (vf_add_num_acts f c). Qed.
Print Assumptions C163_plus_number_partial.

Theorem C163_plus_vector_partial f c d :
  vf_wf f -> vf_tidy f -> exists r, vf_add_vec f c d = Ok r /\ vuv r = vuv f /\
  acts f r same_mask (fun _ _ a b a' b' => (a' = a + c)%num /\ (b' = b + d)%num).
Proof. exact (vf_add_vec_acts f c d). Qed.
Print Assumptions C163_plus_vector_partial.

Theorem C163_plus_array_partial f (o : arr num) :
  vf_wf f -> vf_tidy f -> has_shape o (length (ax (vg f))) (length (ay (vg f))) ->
  exists r, vf_add_arr f (amap Some o) = Ok r /\ vuv r = vuv f /\
    acts f r same_mask (fun x y a b a' b' => exists t, arr_at (vg f) o x y t /\ (a' = a + t)%num /\ (b' = b + t)%num).
Proof. exact (vf_add_arr_acts f o). Qed.
Print Assumptions C163_plus_array_partial.

Theorem C163_wrong_shape_partial f (o : arr onum) :
  ~ has_shape o (length (ax (vg f))) (length (ay (vg f))) -> vf_add_arr f o = Err ValueErr /\ vf_mul_arr f o = Err ValueErr.
Proof. exact (vf_add_arr_bad f o). Qed.
Print Assumptions C163_wrong_shape_partial.

Theorem C163_times_number_partial f c :
  vf_wf f -> vf_tidy f -> acts f (vf_mul_num f c) same_mask (fun _ _ a b a' b' => (a' = a * c)%num /\ (b' = b * c)%num) /\ vuv (vf_mul_num f c) = vuv f.
Proof. exact (vf_mul_num_acts f c). Qed.
Print Assumptions C163_times_number_partial.

Theorem C163_over_number_partial f c :
  c <> 0%num -> vf_wf f -> vf_tidy f ->
  acts f (vf_div_num f c) same_mask (fun _ _ a b a' b' => (a' * c = a)%num /\ (b' * c = b)%num) /\ vuv (vf_div_num f c) = vuv f.
Proof. exact (vf_div_num_acts f c). Qed.
Print Assumptions C163_over_number_partial.

Theorem C163_times_array_partial f (o : arr num) :
  vf_wf f -> vf_tidy f -> has_shape o (length (ax (vg f))) (length (ay (vg f))) ->
  exists r, vf_mul_arr f (amap Some o) = Ok r /\ vuv r = vuv f /\
    acts f r same_mask (fun x y a b a' b' => exists t, arr_at (vg f) o x y t /\ (a' = a * t)%num /\ (b' = b * t)%num).
Proof. exact (vf_mul_arr_acts f o). Qed.
Print Assumptions C163_times_array_partial.

Theorem C163_over_array_partial f (o : arr num) :
  grid_sorted (vg f) -> vf_wf f -> vf_tidy f -> has_shape o (length (ax (vg f))) (length (ay (vg f))) ->
  exists r, vf_div_arr f (amap Some o) = Ok r /\ vuv r = vuv f /\
    acts f r (fun x y m m' => m' = true <-> m = true \/ arr_at (vg f) o x y 0%num)
      (fun x y a b a' b' => exists t, arr_at (vg f) o x y t /\ (a' * t = a)%num /\ (b' * t = b)%num).
Proof. exact (vf_div_arr_acts f o). Qed.
Print Assumptions C163_over_array_partial.

Theorem C163_times_quantity_partial norm f c u :
  normal_form norm -> (c <> 0)%num -> good_unit u -> good_unit (vuv f) -> vf_wf f -> vf_tidy f ->
  exists r, vf_mul_unum norm f c u = Ok r /\ dim (vuv r) = dim_add (dim (vuv f)) (dim u) /\
    acts f r same_mask (fun _ _ a b a' b' => (a' * sc (vuv r) = a * sc (vuv f) * (c * sc u))%num /\ (b' * sc (vuv r) = b * sc (vuv f) * (c * sc u))%num).
Proof. exact (vf_mul_unum_acts norm f c u). Qed.
Print Assumptions C163_times_quantity_partial.

Theorem C163_over_quantity_partial norm f c u :
  normal_form norm -> (c <> 0)%num -> good_unit u -> good_unit (vuv f) -> vf_wf f -> vf_tidy f ->
  exists r, vf_div_unum norm f c u = Ok r /\ dim (vuv r) = dim_add (dim (vuv f)) (map Z.opp (dim u)) /\
    acts f r same_mask (fun _ _ a b a' b' => (a' * sc (vuv r) * (c * sc u) = a * sc (vuv f))%num /\ (b' * sc (vuv r) * (c * sc u) = b * sc (vuv f))%num).
Proof. exact (vf_div_unum_acts norm f c u). Qed.
Print Assumptions C163_over_quantity_partial.

Theorem C163_times_field_partial f s :
  grid_sorted (vg f) -> vf_wf f -> vf_tidy f -> sf_wf s -> sf_clean s -> ax (sg s) = ax (vg f) -> ay (sg s) = ay (vg f) ->
  exists r, vf_mul_sf f s = Ok r /\ vuv r = vuv f /\
    acts f r (fun x y m m' => m' = true <-> m = true \/ exists t, sf_shows s x y t true)
      (fun x y a b a' b' => exists t, sf_shows s x y (Some t) false /\ (a' = a * t)%num /\ (b' = b * t)%num).
Proof. exact (vf_mul_sf_acts f s). Qed.
Print Assumptions C163_times_field_partial.

Theorem C163_absolute_partial f :
  vf_wf f -> vf_tidy f -> acts f (vf_abs f) same_mask (fun _ _ a b a' b' => a' = qabs a /\ b' = qabs b) /\ vuv (vf_abs f) = vuv f.
Proof. exact (vf_abs_acts f). Qed.
Print Assumptions C163_absolute_partial.

Definition own_norm (u : unit_t) : num * unit_t := (sc u, mkunit (dim u) (qz 1)).
Example C163_example : vf_wf a4 /\ vf_tidy a4 /\ normal_form own_norm /\ good_unit millimetre /\
  match vf_mul_unum own_norm a4 (qz 3) millimetre with Ok r => oeqb (at_ (cx r) 1 0) (Some (qq 9 1000)) && at_ (vmsk r) 1 1 | _ => false end = true.
Proof.
  split; [repeat split|]. split; [tidy_cells|]. split; [|split; [reflexivity|vmr]]. intros u. cbn. split; [reflexivity|]. qring.
Qed.
(** the product by a scalar field ignores the unit and the axes of the scalar field *)
Theorem C163_field_unit_refuted : exists f s r, vf_wf f /\ vf_tidy f /\ sf_wf s /\ sf_clean s /\ ax (sg s) = ax (vg f) /\ ay (sg s) = ay (vg f) /\
  vf_mul_sf f s = Ok r /\ dim (vuv r) <> dim_add (dim (vuv f)) (dim (uv s)).
Proof.
  set (f := vf_of [0; 1]%Z [0; 1]%Z sq22 sq22 []). set (s := sf_of [0; 1]%Z [0; 1]%Z sq22 []).
  destruct (ok_ex (vf_mul_sf f s) (fun r => match dim (vuv r), dim_add (dim (vuv f)) (dim (uv s)) with a :: _, b :: _ => negb (Z.eqb a b) | _, _ => false end)) as (r & E & H); [vmr|].
  exists f, s, r. split; [repeat split|]. split; [tidy_cells|]. split; [repeat split|]. split; [apply clean_b_ok; reflexivity|]. split; [reflexivity|]. split; [reflexivity|]. split; [exact E|].
  intro Q. rewrite Q in H. destruct (dim_add (dim (vuv f)) (dim (uv s))) as [|a l]; [discriminate|]. rewrite Z.eqb_refl in H. discriminate.
Qed.
Print Assumptions C163_field_unit_refuted.
Theorem C163_field_axes_refuted : exists f s r x, vf_wf f /\ vf_tidy f /\ sf_wf s /\ sf_clean s /\ grid_sorted (sg s) /\
  vf_mul_sf f s = Ok r /\ In x (ax (vg r)) /\ ~ In x (ax (sg s)).
Proof.
  set (f := vf_of [0; 1]%Z [0; 1]%Z sq22 sq22 []). set (s := sf_of [5; 6]%Z [0; 1]%Z sq22 []).
  destruct (ok_ex (vf_mul_sf f s) (fun r => match ax (vg r) with a :: _ => qeqb a (qz 0) | _ => false end)) as (r & E & H); [vmr|].
  exists f, s, r, (qz 0). split; [repeat split|]. split; [tidy_cells|]. split; [repeat split|]. split; [apply clean_b_ok; reflexivity|]. split; [split; incr|]. split; [exact E|]. split.
  - destruct (ax (vg r)); [discriminate|]. apply qeqb_eq in H. left. exact H.
  - intro I. cbn in I. repeat (destruct I as [I|I]; [apply (f_equal this) in I; vm_compute in I; discriminate|]). exact I.
Qed.
Print Assumptions C163_field_axes_refuted.
(** a field divided by 0 shows NaN (or infinite) vectors that are not masked; a null quantity raises *)
Theorem C163_over_zero_refuted : exists f x y, vf_wf f /\ vf_tidy f /\ vf_shows (vf_div_num f 0%num) x y None None false.
Proof. exists a3, (qz 1), (qz 1). split; [repeat split|]. split; [tidy_cells|]. exists 0, 0. repeat split. Qed.
Print Assumptions C163_over_zero_refuted.
Theorem C163_null_quantity_refuted : exists f, vf_wf f /\ vf_tidy f /\ forall norm u, vf_mul_unum norm f 0%num u = Err GenericErr.
Proof.
  exists a3. split; [repeat split|]. split; [tidy_cells|]. intros norm u. unfold vf_mul_unum. destruct (norm _) as [k w].
  assert (qeqb (0 * k)%num 0%num = true) as -> by (apply qeqb_eq; qring). reflexivity.
Qed.
Print Assumptions C163_null_quantity_refuted.

(** ** C164 *)
Theorem C164_means_equal f h :
  grid_sorted (vg f) -> grid_sorted (vg h) -> vf_tidy f -> vf_tidy h -> (vf_eqb f h = true <-> vf_equal f h).
Proof. exact (vf_eqb_lemma f h). Qed.
Print Assumptions C164_means_equal.

Theorem C164_equivalence :
  (forall f, grid_sorted (vg f) -> vf_tidy f -> vf_eqb f f = true) /\
  (forall f h, grid_sorted (vg f) -> grid_sorted (vg h) -> vf_tidy f -> vf_tidy h -> vf_eqb f h = vf_eqb h f) /\
  (forall f h k, grid_sorted (vg f) -> grid_sorted (vg h) -> grid_sorted (vg k) -> vf_tidy f -> vf_tidy h -> vf_tidy k ->
     vf_eqb f h = true -> vf_eqb h k = true -> vf_eqb f k = true).
Proof. exact vf_eqb_equivalence. Qed.
Print Assumptions C164_equivalence.

Example C164_example : vf_tidy a4 /\ vf_eqb a4 a4 = true /\ vf_eqb a3 a4 = false /\
  vf_eqb a4 (vf_of [2; 3; 4; 5]%Z [1; 2]%Z sq42 [[oz 1; oz 2]; [oz 3; None]; [oz 5; oz 6]; [oz 7; oz 8]] [[false; false]; [false; true]; [false; false]; [false; false]]) = true.
Proof. split; [tidy_cells|]. split; [vmr|]. split; vmr. Qed.

(** ** C165 *)
Theorem C165_tolerance_partial f h :
  length (ax (sg f)) = length (ax (sg h)) -> length (ay (sg f)) = length (ay (sg h)) ->
  exists b, sf_eq f h = Ok b /\ (b = true <-> sf_near f h).
Proof. exact (sf_eq_lemma f h). Qed.
Print Assumptions C165_tolerance_partial.

Theorem C165_reflexive_partial f :
  sf_wf f -> sf_clean f -> sf_eq f f = Ok true.
Proof. exact (sf_eq_reflexive f). Qed.
Print Assumptions C165_reflexive_partial.

Definition s22 (v : num) : sfield := mksf (mkgrid (zs [0; 1]%Z) (zs [0; 1]%Z) metre metre) (afull 2 2 (Some v)) (afull 2 2 false) metre.
Lemma s22_ok v : sf_wf (s22 v) /\ sf_clean (s22 v) /\ grid_sorted (sg (s22 v)).
Proof.
  split; [repeat split|]. split; [|split; incr]. intros x y w m (i & j & _ & _ & <- & <-). cbn. split; discriminate.
Qed.
Example C165_example : sf_eq (s22 (qz 1)) (s22 (qq 100001 100000)) = Ok true /\ sf_eq (s22 (qz 1)) (s22 (qq 1001 1000)) = Ok false.
Proof. split; vmr. Qed.
Theorem C165_symmetric_refuted : exists f h, sf_wf f /\ sf_wf h /\ sf_clean f /\ sf_clean h /\ sf_eq f h = Ok true /\ sf_eq h f = Ok false.
Proof. exists (s22 (qz 99999)), (s22 (qz 100000)). repeat (split; [apply s22_ok|]). split; vmr. Qed.
Print Assumptions C165_symmetric_refuted.
Theorem C165_transitive_refuted : exists f h k, sf_wf f /\ sf_wf h /\ sf_wf k /\ sf_clean f /\ sf_clean h /\ sf_clean k /\
  sf_eq f h = Ok true /\ sf_eq h k = Ok true /\ sf_eq f k = Ok false.
Proof. exists (s22 (qz 0)), (s22 (qq 9 1000000000)), (s22 (qq 18 1000000000)). repeat (split; [apply s22_ok|]). split; [vmr|]. split; vmr. Qed.
Print Assumptions C165_transitive_refuted.
(** fields of other sizes raise instead of being different *)
Theorem C165_sizes_refuted f h : length (ax (sg f)) <> length (ax (sg h)) -> 2 <= length (ax (sg f)) -> 2 <= length (ax (sg h)) -> sf_eq f h = Err ValueErr.
Proof. exact (sf_eq_sizes f h). Qed.
Print Assumptions C165_sizes_refuted.
Example C165_sizes_example : exists f h, length (ax (sg f)) <> length (ax (sg h)) /\ 2 <= length (ax (sg f)) /\ 2 <= length (ax (sg h)).
Proof. exists (s22 0%num), (sf_of [0; 1; 2]%Z [0; 1]%Z sq32 []). cbn. lia. Qed.

(** ** C166 *)
Theorem C166_import_partial x y vx vy m u w t :
  monotone x -> monotone y -> 2 <= length x -> 2 <= length y ->
  has_shape vx (length x) (length y) -> has_shape vy (length x) (length y) -> has_shape m (length x) (length y) ->
  (increasing x /\ increasing y \/
   forall i j, i < length x -> j < length y -> at_ vx i j <> None /\ at_ vy i j <> None /\ at_ m i j = false) ->
  exists f, vf_import x y vx vy m u w t = Ok f /\ grid_sorted (vg f) /\ vf_wf f /\ vf_tidy f /\
    ux (vg f) = u /\ uy (vg f) = w /\ vuv f = t /\
    forall px py a b k, vf_shows f px py a b k <-> vgiven x y vx vy m px py a b k.
Proof. exact (vf_import_lemma x y vx vy m u w t). Qed.
Print Assumptions C166_import_partial.

Theorem C166_transposed_partial x y vx vy m u w t :
  increasing x -> increasing y -> 2 <= length x -> 2 <= length y -> length x <> length y ->
  has_shape vx (length y) (length x) -> has_shape vy (length y) (length x) -> has_shape m (length y) (length x) ->
  exists f, vf_import x y vx vy m u w t = Ok f /\ grid_sorted (vg f) /\ vf_wf f /\ vf_tidy f /\
    forall px py a b k, vf_shows f px py a b k <-> vgiven x y (atrans vx) (atrans vy) (atrans m) px py a b k.
Proof. exact (vf_import_transposed x y vx vy m u w t). Qed.
Print Assumptions C166_transposed_partial.

Example C166_example : monotone (zs [3; 1; 0]%Z) /\ monotone (zs [0; 1]%Z) /\
  match vf_import (zs [3; 1; 0]%Z) (zs [0; 1]%Z) (arr_of None 3 2 sq32) (arr_of None 3 2 sq32) (afull 3 2 false) metre metre metre with
  | Ok f => qeqb (nths (ax (vg f)) 1) (qz 1) && oeqb (at_ (cx f) 0 0) (oz 5) | _ => false end = true.
Proof. split; [right; incr|]. split; [left; incr|]. vmr. Qed.
(** the mask is not reversed with the components: the masked cell is another one *)
Theorem C166_mask_refuted : exists x y vx vy m u f, monotone x /\ monotone y /\ has_shape vx (length x) (length y) /\ has_shape vy (length x) (length y) /\
  has_shape m (length x) (length y) /\ vf_import x y vx vy m u u u = Ok f /\
  exists px py a b, vgiven x y vx vy m px py a b true /\ exists a' b', vf_shows f px py a' b' false.
Proof.
  set (r := vf_import (zs [1; 0]%Z) (zs [0; 1]%Z) (arr_of None 2 2 sq22) (arr_of None 2 2 sq22) (arr_of false 2 2 [[true; false]; [false; false]]) metre metre metre).
  destruct (ok_ex r (fun f => negb (at_ (vmsk f) 1 0) && Nat.eqb (length (ax (vg f))) 2 && Nat.eqb (length (ay (vg f))) 2 && qeqb (nths (ax (vg f)) 1) (qz 1) && qeqb (nths (ay (vg f)) 0) (qz 0))%bool) as (f & E & H); [vmr|].
  exists (zs [1; 0]%Z), (zs [0; 1]%Z), (arr_of None 2 2 sq22), (arr_of None 2 2 sq22), (arr_of false 2 2 [[true; false]; [false; false]]), metre, f.
  split; [right; incr|]. split; [left; incr|]. split; [repeat split|]. split; [repeat split|]. split; [repeat split|]. split; [exact E|].
  rewrite !andb_true_iff, negb_true_iff, !Nat.eqb_eq, !qeqb_eq in H. destruct H as ((((M & LX) & LY) & X) & Y).
  exists (qz 1), (qz 0), None, None. split; [exists 0, 0; repeat split|]. exists (at_ (cx f) 1 0), (at_ (cy f) 1 0). exists 1, 0.
  split; [etransitivity; [apply (nths_nth_error _ 1); lia|now rewrite X]|]. split; [etransitivity; [apply (nths_nth_error _ 0); lia|now rewrite Y]|]. auto.
Qed.
Print Assumptions C166_mask_refuted.

(** ** C167 *)
Theorem C167_scalar_partial f k :
  sf_wf f -> sf_clean f -> grid_sorted (sg f) -> Nat.Even k -> 2 <= k ->
  2 * k <= length (ax (sg f)) -> 2 * k <= length (ay (sg f)) ->
  exists r, sf_reduce f (Z.of_nat k) = Ok r /\ uv r = uv f /\ ux (sg r) = ux (sg f) /\ uy (sg r) = uy (sg f) /\ sf_wf r /\ grid_sorted (sg r) /\
    coarse_axis (ax (sg f)) (ax (sg r)) k /\ coarse_axis (ay (sg f)) (ay (sg r)) k /\
    forall i j, cell_in r i j -> let l := block_values (values f) (msk f) k i j in
      (at_ (msk r) i j = true <-> l = []) /\ (at_ (msk r) i j = false -> is_mean l (at_ (values r) i j)).
Proof. exact (sf_reduce_lemma f k). Qed.
Print Assumptions C167_scalar_partial.

Theorem C167_vector_partial f k :
  vf_wf f -> vf_tidy f -> grid_sorted (vg f) -> Nat.Even k -> 2 <= k ->
  2 * k <= length (ax (vg f)) -> 2 * k <= length (ay (vg f)) ->
  exists r, vf_reduce f (Z.of_nat k) = Ok r /\ vuv r = vuv f /\ ux (vg r) = ux (vg f) /\ uy (vg r) = uy (vg f) /\ vf_wf r /\ grid_sorted (vg r) /\
    coarse_axis (ax (vg f)) (ax (vg r)) k /\ coarse_axis (ay (vg f)) (ay (vg r)) k /\
    forall i j, vcell_in r i j ->
      (at_ (vmsk r) i j = true <-> block_values (cx f) (vmsk f) k i j = []) /\
      (at_ (vmsk r) i j = false -> is_mean (block_values (cx f) (vmsk f) k i j) (at_ (cx r) i j) /\ is_mean (block_values (cy f) (vmsk f) k i j) (at_ (cy r) i j)).
Proof. exact (vf_reduce_lemma f k). Qed.
Print Assumptions C167_vector_partial.

Definition row4 (a b c d : Z) : list onum := [oz a; oz b; oz c; oz d].
Definition f44 : sfield := sf_of [0; 1; 2; 3]%Z [0; 1; 2; 3]%Z [row4 1 2 3 4; row4 5 6 7 8; [oz 9; oz 10; None; None]; [oz 11; None; None; None]]
  [[false; false; false; false]; [false; false; false; false]; [false; false; true; true]; [false; true; true; true]].
Example C167_example : sf_wf f44 /\ sf_clean f44 /\ grid_sorted (sg f44) /\ Nat.Even 2 /\
  match sf_reduce f44 2 with Ok r => oeqb (at_ (values r) 0 0) (Some (qq 7 2)) && oeqb (at_ (values r) 1 0) (oz 10) && at_ (msk r) 1 1 && qeqb (nths (ax (sg r)) 1) (qq 5 2) | _ => false end = true.
Proof. split; [repeat split|]. split; [apply clean_b_ok; reflexivity|]. split; [split; incr|]. split; [now exists 1|vmr]. Qed.
Definition row6 : list onum := [oz 1; oz 2; oz 3; oz 4; oz 5; oz 6].
Definition f66 : sfield := sf_of [0; 1; 2; 3; 4; 5]%Z [0; 1; 2; 3; 4; 5]%Z [row6; row6; row6; row6; row6; row6] [].
Theorem C167_odd_refuted : exists f, sf_wf f /\ sf_clean f /\ grid_sorted (sg f) /\ 2 * 3 <= length (ax (sg f)) /\ 2 * 3 <= length (ay (sg f)) /\ sf_reduce f 3 = Err TypeErr.
Proof. exists f66. split; [repeat split|]. split; [apply clean_b_ok; reflexivity|]. split; [split; incr|]. split; [cbn; lia|]. split; [cbn; lia|vmr]. Qed.
Print Assumptions C167_odd_refuted.
(** a field that would have a single line *)
Theorem C167_one_line_refuted : exists f, sf_wf f /\ sf_clean f /\ grid_sorted (sg f) /\ 4 <= length (ax (sg f)) /\ 4 <= length (ay (sg f)) /\ sf_reduce f 4 = Err IndexErr.
Proof. exists f66. split; [repeat split|]. split; [apply clean_b_ok; reflexivity|]. split; [split; incr|]. split; [cbn; lia|]. split; [cbn; lia|vmr]. Qed.
Print Assumptions C167_one_line_refuted.
