(** * PropScalar: the properties C13 to C21 (values, mask, arithmetic, cropping, import, evaluation).
    Statements only; the proofs are in ScalarProofs and FieldProofs3.  The vocabulary is in FieldSpec. *)
From Verif Require Import Num Res ListLib Arr FieldModel ScalarFieldModel VectorFieldModel FieldSpec FieldProofs RotateProofs FieldProofs2 ScalarProofs FieldProofs3 Concrete PropField.

(** ** C13: masked cells always read NaN; the converse needs that no mask assignment reveals a cell *)
Theorem C13_masked_reads_nan f ops i j :
  at_ (msk (fold_left sstep ops f)) i j = true -> at_ (values (fold_left sstep ops f)) i j = None.
Proof. exact (mask_nan_always f ops i j). Qed.
Print Assumptions C13_masked_reads_nan.

Theorem C13_history_partial f ops :
  sf_wf f -> sf_clean f -> never_reveals f ops ->
  let f' := fold_left sstep ops f in
  forall i j, cell_in f' i j ->
    (at_ (values f') i j = None <-> at_ (msk f') i j = true) /\
    (at_ (msk f') i j = false -> at_ (values f') i j = at_ (last_assigned (values f) (sg f) ops) i j).
Proof. exact (history_lemma f ops). Qed.
Print Assumptions C13_history_partial.

Theorem C13_reveal_refuted : exists f ops, sf_wf f /\ sf_clean f /\
  let f' := fold_left sstep ops f in
  exists i j, cell_in f' i j /\ at_ (msk f') i j = false /\ at_ (values f') i j = None.
Proof.
  exists ex_sf, [OpMaskBool false]. split; [apply ex_sf_ok|]. split; [exact ex_sf_clean|].
  exists 1, 0. repeat split; simpl; try reflexivity; lia.
Qed.
Print Assumptions C13_reveal_refuted.
Example C13_example : never_reveals ex_sf [OpRead; OpMaskBool true; OpValues (afull 3 2 (oz 5)); OpMask (afull 3 2 false); OpValues (afull 1 1 (oz 5))].
Proof.
  cbn [never_reveals]. repeat split; auto.
Qed.
(** ** C14 *)
Theorem C14_sum f h :
  compatible f h -> good_unit (uv f) -> increasing (ax (sg f)) -> increasing (ay (sg f)) ->
  ax (sg f) = ax (sg h) -> ay (sg f) = ay (sg h) -> sf_wf f ->
  exists s, sf_add f h = Ok s /\ sg s = sg f /\ uv s = uv f /\ sf_wf s /\
    forall x y v m, sf_shows s x y v m <->
      exists v1 m1 v2 m2, sf_shows f x y v1 m1 /\ sf_shows h x y v2 m2 /\ m = orb m1 m2 /\
        osum_phys v (uv f) v1 (uv f) v2 (uv h).
Proof. exact (sf_add_same_lemma f h). Qed.
Print Assumptions C14_sum.

Theorem C14_commutes f h s t :
  compatible f h -> good_unit (uv f) -> good_unit (uv h) ->
  increasing (ax (sg f)) -> increasing (ay (sg f)) ->
  ax (sg f) = ax (sg h) -> ay (sg f) = ay (sg h) -> sf_wf f -> sf_wf h ->
  sf_add f h = Ok s -> sf_add h f = Ok t ->
  forall x y v m, sf_shows s x y v m -> exists v', sf_shows t x y v' m /\ oeq_phys v (uv f) v' (uv h).
Proof. exact (sf_add_comm f h s t). Qed.
Print Assumptions C14_commutes.

Theorem C14_incompatible f h :
  ~ compatible f h -> sf_add f h = Err ValueErr.
Proof. exact (sf_add_incompatible f h). Qed.
Print Assumptions C14_incompatible.

Example C14_example : compatible ex_sf (sf_scale ex_sf SNone SNone (SNum (qz 2))) /\ is_ok (sf_add ex_sf ex_sf) = true.
Proof. repeat split. Qed.
(** ** C15: at least two common coordinates on each axis *)
Theorem C15_common_points_partial f h :
  compatible f h -> good_unit (uv f) -> grid_sorted (sg f) -> grid_sorted (sg h) ->
  sf_clean f -> sf_clean h ->
  (ax (sg f) <> ax (sg h) \/ ay (sg f) <> ay (sg h)) ->
  (exists x1 x2, x1 <> x2 /\ In x1 (ax (sg f)) /\ In x2 (ax (sg f)) /\ In x1 (ax (sg h)) /\ In x2 (ax (sg h))) ->
  (exists y1 y2, y1 <> y2 /\ In y1 (ay (sg f)) /\ In y2 (ay (sg f)) /\ In y1 (ay (sg h)) /\ In y2 (ay (sg h))) ->
  exists s, sf_add f h = Ok s /\ uv s = uv f /\ ux (sg s) = ux (sg f) /\ uy (sg s) = uy (sg f) /\ sf_wf s /\ grid_sorted (sg s) /\
    (forall x, In x (ax (sg s)) <-> In x (ax (sg f)) /\ In x (ax (sg h))) /\
    (forall y, In y (ay (sg s)) <-> In y (ay (sg f)) /\ In y (ay (sg h))) /\
    (forall x y v m, sf_shows s x y v m <->
      exists v1 m1 v2 m2, sf_shows f x y v1 m1 /\ sf_shows h x y v2 m2 /\ m = orb m1 m2 /\
        osum_phys v (uv f) v1 (uv f) v2 (uv h)).
Proof. exact (sf_add_diff_api f h). Qed.
Print Assumptions C15_common_points_partial.

Theorem C15_no_common_point f h :
  compatible f h -> good_unit (uv f) -> grid_sorted (sg f) -> grid_sorted (sg h) ->
  (ax (sg f) <> ax (sg h) \/ ay (sg f) <> ay (sg h)) ->
  ((forall x, In x (ax (sg f)) -> ~ In x (ax (sg h))) \/ (forall y, In y (ay (sg f)) -> ~ In y (ay (sg h)))) ->
  sf_add f h = Err ValueErr.
Proof. exact (sf_add_diff_err f h). Qed.
Print Assumptions C15_no_common_point.

Theorem C15_single_line_refuted : exists f h, compatible f h /\ sf_wf f /\ sf_wf h /\ grid_sorted (sg f) /\ grid_sorted (sg h) /\
  (exists x y v m v' m', sf_shows f x y v m /\ sf_shows h x y v' m') /\ sf_add f h = Err IndexErr.
Proof.
  exists (sf_of [0; 1]%Z [0; 1]%Z [[oz 1; oz 2]; [oz 3; oz 4]] [[false; false]; [false; false]]).
  exists (sf_of [1; 2]%Z [1; 2]%Z [[oz 1; oz 2]; [oz 3; oz 4]] [[false; false]; [false; false]]).
  split; [repeat split|]. split; [repeat split|]. split; [repeat split|]. split; [split; incr|]. split; [split; incr|].
  split; [|reflexivity]. exists (qz 1), (qz 1), (oz 4), false, (oz 1), false.
  split; [exists 1, 1|exists 0, 0]; repeat split; reflexivity.
Qed.
Print Assumptions C15_single_line_refuted.
(** axes in different units are compared as bare numbers *)
Theorem C15_axis_units_refuted : exists f h s x y v1 m1 v2 m2 v,
  compatible f h /\ sf_wf f /\ sf_wf h /\ sf_add f h = Ok s /\ sf_shows f x y v1 m1 /\ sf_shows h x y v2 m2 /\
  (x * sc (ux (sg f)))%num <> (x * sc (ux (sg h)))%num /\ sf_shows s x y v false /\ osum_phys v (uv f) v1 (uv f) v2 (uv h).
Proof.
  exists (sf_of [0; 1]%Z [0; 1]%Z [[oz 1; oz 2]; [oz 3; oz 4]] [[false; false]; [false; false]]).
  exists (mksf (mkgrid (zs [0; 1]%Z) (zs [0; 1]%Z) millimetre metre) (arr_of None 2 2 [[oz 1; oz 2]; [oz 3; oz 4]]) (afull 2 2 false) metre).
  eexists. exists (qz 1), (qz 1), (oz 4), false, (oz 4), false, (oz 8).
  split; [repeat split|]. split; [repeat split|]. split; [repeat split|]. split; [reflexivity|].
  split; [exists 1, 1; repeat split; reflexivity|]. split; [exists 1, 1; repeat split; reflexivity|].
  split; [intro H; apply (f_equal this) in H; vm_compute in H; discriminate|].
  split; [exists 1, 1; repeat split; simpl; f_equal; qc|]. eexists. split; [reflexivity|]. qc.
Qed.
Print Assumptions C15_axis_units_refuted.
Example C15_example : let h := sf_of [1; 2; 3]%Z [10; 15; 20]%Z [[oz 1; oz 2; oz 3]; [oz 1; oz 2; oz 3]; [oz 1; oz 2; oz 3]] [] in
  compatible ex_sf h /\ grid_sorted (sg h) /\ ax (sg ex_sf) <> ax (sg h) /\
  exists x1 x2, x1 <> x2 /\ In x1 (ax (sg ex_sf)) /\ In x2 (ax (sg ex_sf)) /\ In x1 (ax (sg h)) /\ In x2 (ax (sg h)).
Proof.
  cbv zeta. split; [repeat split|]. split; [split; incr|]. split.
  - intro H. apply (f_equal (fun l => qeqb (nths l 0) 0%num)) in H. vm_compute in H. discriminate.
  - exists (qz 1), (qz 3). split; [intro H; apply (f_equal (qeqb 1%num)) in H; vm_compute in H; discriminate|]. simpl. tauto.
Qed.
(** ** C16: field / field and field / array hold; number / field and array / field leave zeros unmasked *)
Theorem C16_field_by_field f h :
  ax (sg f) = ax (sg h) -> ay (sg f) = ay (sg h) -> ux (sg f) = ux (sg h) -> uy (sg f) = uy (sg h) ->
  sf_wf f -> sf_clean f -> sf_clean h ->
  exists s, sf_div f h = Ok s /\ sg s = sg f /\ sf_wf s /\
    forall i j, i < length (ax (sg f)) -> j < length (ay (sg f)) ->
      (at_ (msk s) i j = true <-> at_ (msk f) i j = true \/ at_ (msk h) i j = true \/ at_ (values h) i j = Some 0%num) /\
      (at_ (msk s) i j = false -> quotient (at_ (values s) i j) (at_ (values f) i j) (at_ (values h) i j)).
Proof. exact (sf_div_lemma f h). Qed.
Print Assumptions C16_field_by_field.

Theorem C16_field_by_array f o :
  sf_wf f -> sf_clean f -> has_shape o (length (ax (sg f))) (length (ay (sg f))) ->
  (forall i j, i < length (ax (sg f)) -> j < length (ay (sg f)) -> at_ o i j <> None) ->
  exists s, sf_div_arr f o = Ok s /\ sg s = sg f /\ sf_wf s /\
    forall i j, i < length (ax (sg f)) -> j < length (ay (sg f)) ->
      (at_ (msk s) i j = true <-> at_ (msk f) i j = true \/ at_ o i j = Some 0%num) /\
      (at_ (msk s) i j = false -> quotient (at_ (values s) i j) (at_ (values f) i j) (at_ o i j)).
Proof. exact (sf_div_arr_lemma f o). Qed.
Print Assumptions C16_field_by_array.

Theorem C16_number_by_field_refuted : exists c f, sf_wf f /\ sf_clean f /\
  exists i j, cell_in f i j /\ at_ (values f) i j = Some 0%num /\ at_ (msk (sf_rdiv_num c f)) i j = false.
Proof.
  exists (qz 1), (sf_of [0; 1]%Z [0]%Z [[oz 0]; [oz 1]] [[false]; [false]]). split; [repeat split|]. split.
  - intros x y v m (i & j & H1 & H2 & <- & <-). apply nth_error_Some_lt in H1, H2. simpl in H1, H2.
    destruct i as [|[|i]]; try lia; destruct j as [|j]; try lia; vm_compute; split; intro; congruence.
  - exists 0, 0. repeat split; simpl; try reflexivity; lia.
Qed.
Print Assumptions C16_number_by_field_refuted.
Theorem C16_array_by_field_refuted : exists o f s, sf_wf f /\ sf_clean f /\ sf_rdiv_arr o f = Ok s /\
  exists i j, cell_in f i j /\ at_ (values f) i j = Some 0%num /\ at_ (msk s) i j = false.
Proof.
  exists (afull 2 1 (oz 1)), (sf_of [0; 1]%Z [0]%Z [[oz 0]; [oz 1]] [[false]; [false]]). eexists. split; [repeat split|]. split.
  - intros x y v m (i & j & H1 & H2 & <- & <-). apply nth_error_Some_lt in H1, H2. simpl in H1, H2.
    destruct i as [|[|i]]; try lia; destruct j as [|j]; try lia; vm_compute; split; intro; congruence.
  - split; [reflexivity|]. exists 0, 0. repeat split; simpl; try reflexivity; lia.
Qed.
Print Assumptions C16_array_by_field_refuted.
Example C16_example : exists s, sf_div ex_sf ex_sf = Ok s /\ at_ (msk s) 1 0 = true /\ at_ (msk s) 0 0 = false.
Proof. eexists. split; [reflexivity|]. split; reflexivity. Qed.
(** ** C17 *)
Theorem C17_soft_partial f :
  sf_wf f ->
  (exists i j, cell_in f i j /\ at_ (msk f) i j = true) ->
  (exists i j, 0 < i /\ cell_in f i j /\ at_ (msk f) i j = false) ->
  (exists i j, 0 < j /\ cell_in f i j /\ at_ (msk f) i j = false) ->
  exists f', crop_masked_border f false = Ok (Some f') /\ subgrid f f' /\ sf_wf f' /\
    (grid_sorted (sg f) -> forall x y v, sf_shows f x y v false -> sf_shows f' x y v false) /\
    (let n := length (ax (sg f')) in let m := length (ay (sg f')) in
     0 < n /\ 0 < m /\
     (exists j, j < m /\ at_ (msk f') 0 j = false) /\ (exists j, j < m /\ at_ (msk f') (n - 1) j = false) /\
     (exists i, i < n /\ at_ (msk f') i 0 = false) /\ (exists i, i < n /\ at_ (msk f') i (m - 1) = false)).
Proof. exact (soft_crop_api f). Qed.
Print Assumptions C17_soft_partial.

Theorem C17_unmasked_field_refuted : exists f, sf_wf f /\ any_masked f = false /\ crop_masked_border f false = Ok None.
Proof. exists (sf_of [0; 1]%Z [0; 1]%Z [[oz 0; oz 1]; [oz 1; oz 1]] []). repeat split. Qed.
Print Assumptions C17_unmasked_field_refuted.
Theorem C17_first_row_refuted : exists f x y v, sf_wf f /\ sf_shows f x y v false /\ crop_masked_border f false = Err ValueErr.
Proof.
  exists (sf_of [0; 1]%Z [0; 1]%Z [[oz 0; oz 1]; [None; None]] [[false; false]; [true; true]]), (qz 0), (qz 0), (oz 0).
  split; [repeat split|]. split; [exists 0, 0; repeat split; reflexivity|reflexivity].
Qed.
Print Assumptions C17_first_row_refuted.
Example C17_example : exists f', crop_masked_border (sf_of [0; 1; 2]%Z [0; 1; 2]%Z [[None; None; None]; [None; oz 1; oz 2]; [None; oz 3; oz 4]]
    [[true; true; true]; [true; false; false]; [true; false; false]]) false = Ok (Some f') /\ length (ax (sg f')) = 2.
Proof. eexists. split; reflexivity. Qed.
(** ** C18: it never loops for ever and a returned field is clean; on some masks it raises instead *)
Theorem C18_hard_partial f :
  sf_wf f ->
  crop_masked_border f true <> Err OutOfFuel /\
  forall f', crop_masked_border f true = Ok (Some f') ->
    subgrid f f' /\ sf_wf f' /\
    forall i j, i < length (ax (sg f')) -> j < length (ay (sg f')) -> at_ (msk f') i j = false.
Proof. exact (hard_crop_lemma f). Qed.
Print Assumptions C18_hard_partial.

Theorem C18_raises_refuted : exists f x y v, sf_wf f /\ sf_shows f x y v false /\ crop_masked_border f true = Err ValueErr.
Proof.
  exists (sf_of [0; 1]%Z [0; 1]%Z [[oz 0; oz 1]; [None; oz 3]] [[false; false]; [true; false]]), (qz 0), (qz 0), (oz 0).
  split; [repeat split|]. split; [exists 0, 0; repeat split; reflexivity|reflexivity].
Qed.
Print Assumptions C18_raises_refuted.
Example C18_example : exists f', crop_masked_border ex_sf true = Ok (Some f').
Proof. eexists. reflexivity. Qed.
(** ** C19 *)
Theorem C19_iteration f :
  sf_wf f -> grid_sorted (sg f) ->
  NoDup (map (fun t => snd (fst t)) (sf_iter f)) /\
  forall x y v, (exists p, In (p, (x, y), v) (sf_iter f)) <-> sf_shows f x y v false.
Proof. exact (sf_iter_spec f). Qed.
Print Assumptions C19_iteration.

Theorem C19_scatter f extra :
  sf_wf f -> grid_sorted (sg f) ->
  match extra with None => True | Some e => has_shape e (length (ax (sg f))) (length (ay (sg f))) end ->
  exists pts vals, export_to_scatter f extra = Ok (pts, vals) /\ length pts = length vals /\ NoDup pts /\
   forall x y v, In ((x, y), v) (combine pts vals) <->
     sf_shows f x y v false /\
     match extra with None => True | Some e => at_pos (ax (sg f)) (ay (sg f)) e x y false end.
Proof. exact (export_scatter_lemma f extra). Qed.
Print Assumptions C19_scatter.

Example C19_example : length (sf_iter ex_sf) = 5.
Proof. reflexivity. Qed.
(** ** C20: holds for increasing axes, and for decreasing axes when nothing is masked *)
Theorem C20_import_partial x y v m u w t :
  monotone x -> monotone y -> 2 <= length x -> 2 <= length y ->
  has_shape v (length x) (length y) ->
  match m with None => True | Some mm => has_shape mm (length x) (length y) end ->
  (increasing x /\ increasing y \/
   forall i j, i < length x -> j < length y -> at_ v i j <> None /\ match m with None => True | Some mm => at_ mm i j = false end) ->
  exists f, sf_import x y v m u w t = Ok f /\ grid_sorted (sg f) /\ sf_wf f /\
    ux (sg f) = u /\ uy (sg f) = w /\ uv f = t /\
    forall px py a b, sf_shows f px py a b <-> given x y v m px py a b.
Proof. exact (sf_import_lemma x y v m u w t). Qed.
Print Assumptions C20_import_partial.

Theorem C20_transposed x y v m u w t :
  increasing x -> increasing y -> 2 <= length x -> 2 <= length y ->
  length x <> length y ->
  has_shape v (length y) (length x) ->
  match m with None => True | Some mm => has_shape mm (length y) (length x) end ->
  exists f, sf_import x y v m u w t = Ok f /\ grid_sorted (sg f) /\ sf_wf f /\
    forall px py a b, sf_shows f px py a b <-> given x y (atrans v) (option_map atrans m) px py a b.
Proof. exact (sf_import_transposed x y v m u w t). Qed.
Print Assumptions C20_transposed.

Theorem C20_mask_refuted : exists x y v m u f, monotone x /\ monotone y /\ has_shape v (length x) (length y) /\
  has_shape m (length x) (length y) /\ sf_import x y v (Some m) u u u = Ok f /\
  exists px py a b, given x y v (Some m) px py a b /\ ~ sf_shows f px py a b.
Proof.
  exists (zs [1; 0]%Z), (zs [0; 1]%Z), (arr_of None 2 2 [[oz 1; oz 2]; [oz 3; oz 4]]), (arr_of false 2 2 [[true; false]; [false; false]]), metre.
  eexists. split; [right; incr|]. split; [left; incr|]. split; [repeat split|]. split; [repeat split|]. split; [reflexivity|].
  exists (qz 1), (qz 0), None, true. split.
  - exists 0, 0. repeat split.
  - intros (i & j & H1 & H2 & H3 & H4).
    destruct i as [|[|i]]; [discriminate H1| |destruct i; discriminate H1].
    destruct j as [|[|j]]; [|discriminate H2|destruct j; discriminate H2]. vm_compute in H4. discriminate.
Qed.
Print Assumptions C20_mask_refuted.
Example C20_example : monotone (zs [3; 1; 0]%Z) /\ monotone (zs [0; 1]%Z) /\ ~ increasing (zs [3; 1; 0]%Z).
Proof.
  split; [right; incr|]. split; [left; incr|]. intro H. specialize (H 0 1 ltac:(lia) ltac:(simpl; lia)). vm_compute in H. discriminate.
Qed.
(** ** C21 (inside a cell scipy's interpolator is an arbitrary function [cellinterp]) *)
Theorem C21_on_grid cellinterp f x y v m :
  grid_sorted (sg f) -> sf_shows f x y v m -> get_value cellinterp f x y = Ok v.
Proof. exact (get_value_node cellinterp f x y v m). Qed.
Print Assumptions C21_on_grid.

Theorem C21_between_x cellinterp f i j x y :
  grid_sorted (sg f) -> S i < length (ax (sg f)) -> nth_error (ay (sg f)) j = Some y ->
  (nths (ax (sg f)) i < x)%num -> (x < nths (ax (sg f)) (S i))%num ->
  match at_ (values f) i j, at_ (values f) (S i) j with
  | Some a, Some b => exists r, get_value cellinterp f x y = Ok (Some r) /\
       on_line (nths (ax (sg f)) i) (nths (ax (sg f)) (S i)) x a b r /\ (qmin a b <= r)%num /\ (r <= qmax a b)%num
  | _, _ => get_value cellinterp f x y = Ok None
  end.
Proof. exact (get_value_xline cellinterp f i j x y). Qed.
Print Assumptions C21_between_x.

Theorem C21_between_y cellinterp f i j x y :
  grid_sorted (sg f) -> S j < length (ay (sg f)) -> nth_error (ax (sg f)) i = Some x ->
  (nths (ay (sg f)) j < y)%num -> (y < nths (ay (sg f)) (S j))%num ->
  match at_ (values f) i j, at_ (values f) i (S j) with
  | Some a, Some b => exists r, get_value cellinterp f x y = Ok (Some r) /\
       on_line (nths (ay (sg f)) j) (nths (ay (sg f)) (S j)) y a b r /\ (qmin a b <= r)%num /\ (r <= qmax a b)%num
  | _, _ => get_value cellinterp f x y = Ok None
  end.
Proof. exact (get_value_yline cellinterp f i j x y). Qed.
Print Assumptions C21_between_y.

Theorem C21_in_cell cellinterp f i j x y :
  grid_sorted (sg f) -> S i < length (ax (sg f)) -> S j < length (ay (sg f)) ->
  (nths (ax (sg f)) i < x)%num -> (x < nths (ax (sg f)) (S i))%num ->
  (nths (ay (sg f)) j < y)%num -> (y < nths (ay (sg f)) (S j))%num ->
  get_value cellinterp f x y =
  Ok (if (at_ (msk f) i j || at_ (msk f) (S i) (S j))%bool then None else cellinterp f i j x y).
Proof. exact (get_value_cell cellinterp f i j x y). Qed.
Print Assumptions C21_in_cell.

Theorem C21_outside cellinterp f x y :
  ax (sg f) <> [] -> ay (sg f) <> [] -> ~ inside f x y ->
  get_value cellinterp f x y = Err ValueErr.
Proof. exact (get_value_outside cellinterp f x y). Qed.
Print Assumptions C21_outside.

Example C21_example c : exists r, get_value c ex_sf (qz 2) (qz 20) = Ok (Some r) /\ r = qz 5.
Proof. eexists. split; [reflexivity|]. qc. Qed.
