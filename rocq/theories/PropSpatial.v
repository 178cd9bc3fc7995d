(** * PropSpatial: the properties C155 to C160: sets of fields covering different areas.
    Statements only; the proofs are in SpatialProofs*.v.  The vocabulary is in SpatialSpec and FieldSpec. *)
From Coq Require Import Lia QArith Qcanon List Permutation String ZArith.
From Verif Require Import Num Res ListLib Arr FieldModel ScalarFieldModel VectorFieldModel FieldSpec Concrete ProfileModel TemporalModel TemporalSpec TemporalEx
  SpatialModel SpatialSpec SpatialProofs SpatialProofs2 SpatialProofs3 SpatialProofs4.
Close Scope string_scope.
Notation length := List.length.

(** ** C155 *)
Theorem C155_first_partial ci s f :
  s_fields s = [] -> sf_addable f ->
  exists f', sp_add (sf_sops ci) s f = (f', mkset (Some (ux (sg f), uy (sg f), uv f)) [f'], None) /\
    ux (sg f') = ux (sg f) /\ uy (sg f') = uy (sg f) /\ uv f' = uv f /\
    (forall X Y V, sf_content f' X Y V <-> sf_content f X Y V) /\
    tight (length (ax (sg f'))) (length (ay (sg f'))) (msk f').
Proof. exact (ssf_first ci s f). Qed.
Print Assumptions C155_first_partial.

Theorem C155_add_partial ci s f a b c :
  s_fields s <> [] -> s_units s = Some (a, b, c) -> good_units (a, b, c) -> sf_addable f ->
  compatible (ux (sg f), uy (sg f), uv f) (a, b, c) ->
  exists f', sp_add (sf_sops ci) s f = (f', mkset (s_units s) (s_fields s ++ [f']), None) /\
    ux (sg f') = a /\ uy (sg f') = b /\ uv f' = c /\
    (forall X Y V, sf_content f' X Y V <-> sf_content f X Y V) /\
    tight (length (ax (sg f'))) (length (ay (sg f'))) (msk f').
Proof. exact (ssf_add ci s f a b c). Qed.
Print Assumptions C155_add_partial.

Theorem C155_incompatible_partial ci s f a b c :
  s_fields s <> [] -> s_units s = Some (a, b, c) -> good_units (a, b, c) ->
  ~ compatible (ux (sg f), uy (sg f), uv f) (a, b, c) -> exists f', sp_add (sf_sops ci) s f = (f', s, Some ValueErr).
Proof. exact (ssf_incompatible ci s f a b c). Qed.
Print Assumptions C155_incompatible_partial.

Theorem C155_history_partial ci l f :
  In f (s_fields (sp_adds (sf_sops ci) sp_new l)) ->
  s_units (sp_adds (sf_sops ci) sp_new l) = Some (ux (sg f), uy (sg f), uv f).
Proof. exact (ssf_history ci l f). Qed.
Print Assumptions C155_history_partial.

Theorem C155_first_vector_partial ci s f :
  s_fields s = [] -> vf_addable f ->
  exists f', sp_add (vf_sops ci) s f = (f', mkset (Some (ux (vg f), uy (vg f), vuv f)) [f'], None) /\
    ux (vg f') = ux (vg f) /\ uy (vg f') = uy (vg f) /\ vuv f' = vuv f /\
    (forall X Y V W, vf_content f' X Y V W <-> vf_content f X Y V W) /\
    tight (length (ax (vg f'))) (length (ay (vg f'))) (vmsk f').
Proof. exact (svf_first ci s f). Qed.
Print Assumptions C155_first_vector_partial.

Theorem C155_add_vector_partial ci s f a b c :
  s_fields s <> [] -> s_units s = Some (a, b, c) -> good_units (a, b, c) -> vf_addable f ->
  compatible (ux (vg f), uy (vg f), vuv f) (a, b, c) ->
  exists f', sp_add (vf_sops ci) s f = (f', mkset (s_units s) (s_fields s ++ [f']), None) /\
    ux (vg f') = a /\ uy (vg f') = b /\ vuv f' = c /\
    (forall X Y V W, vf_content f' X Y V W <-> vf_content f X Y V W) /\
    tight (length (ax (vg f'))) (length (ay (vg f'))) (vmsk f').
Proof. exact (svf_add ci s f a b c). Qed.
Print Assumptions C155_add_vector_partial.

Theorem C155_incompatible_vector_partial ci s f a b c :
  s_fields s <> [] -> s_units s = Some (a, b, c) -> good_units (a, b, c) ->
  ~ compatible (ux (vg f), uy (vg f), vuv f) (a, b, c) -> exists f', sp_add (vf_sops ci) s f = (f', s, Some ValueErr).
Proof. exact (svf_incompatible ci s f a b c). Qed.
Print Assumptions C155_incompatible_vector_partial.

Theorem C155_history_vector_partial ci l f :
  In f (s_fields (sp_adds (vf_sops ci) sp_new l)) ->
  s_units (sp_adds (vf_sops ci) sp_new l) = Some (ux (vg f), uy (vg f), vuv f).
Proof. exact (svf_history ci l f). Qed.
Print Assumptions C155_history_vector_partial.

Definition nine : list (list onum) := [[oz 1; oz 2; oz 3]; [oz 4; oz 5; oz 6]; [oz 7; oz 8; oz 9]].
Definition f33 : sfield := sf_of [0; 1; 2]%Z [0; 1; 2]%Z nine [].
(** the first column is masked; lengths in millimetres *)
Definition in_mm : sfield := mksf (mkgrid (zs [0; 1000; 3000]%Z) (zs [0; 1000; 2000]%Z) millimetre millimetre)
  (arr_of None 3 3 [[None; None; None]; [oz 4; None; oz 6]; [oz 7; oz 8; oz 9]])
  (arr_of false 3 3 [[true; true; true]; [false; true; false]; [false; false; false]]) metre.
Lemma f33_addable : sf_addable f33.
Proof.
  split; [repeat split|]. split; [apply clean_b_ok; reflexivity|]. split; [split; incr|]. split; [repeat split; reflexivity|].
  left. split; [cbn; lia|]. split; [cbn; lia|]. intros i j Hi Hj. cbn in Hi, Hj. destruct i as [|[|[|i]]]; destruct j as [|[|[|j]]]; try lia; reflexivity.
Qed.
Lemma in_mm_addable : sf_addable in_mm.
Proof.
  split; [repeat split|]. split; [apply clean_b_ok; reflexivity|]. split; [split; incr|]. split; [repeat split; reflexivity|].
  right. split; [exists 1, 0|exists 2, 2]; cbn; repeat split; lia.
Qed.
Definition noci : sfield -> nat -> nat -> num -> num -> onum := fun _ _ _ _ _ => None.
Example C155_example : let s := mkset (Some (metre, metre, metre)) [f33] in
  s_fields s <> [] /\ s_units s = Some (metre, metre, metre) /\ good_units (metre, metre, metre) /\ sf_addable in_mm /\
  compatible (ux (sg in_mm), uy (sg in_mm), uv in_mm) (metre, metre, metre) /\ sf_content in_mm (qz 1) (qz 2) (qz 6).
Proof.
  cbv zeta. split; [discriminate|]. split; [reflexivity|]. split; [repeat split; reflexivity|]. split; [exact in_mm_addable|]. split; [repeat split|].
  exists (qz 1000), (qz 2000), (qz 6). split; [exists 1, 2; repeat split|]. repeat split; qc.
Qed.
Definition v33 : vfield := vf_of [0; 1; 2]%Z [0; 1; 2]%Z nine nine [].
Example C155_vector_example : vf_addable v33 /\ vf_content v33 (qz 1) (qz 2) (qz 6) (qz 6).
Proof.
  split.
  - split; [repeat split|]. split.
    + intros x y v w m (i & j & E1 & E2 & <- & <- & <-). pose proof (nth_error_Some_lt _ _ _ E1) as Li. pose proof (nth_error_Some_lt _ _ _ E2) as Lj. cbn in Li, Lj.
      destruct i as [|[|[|i]]]; destruct j as [|[|[|j]]]; try lia; cbn; split; split; intro H; discriminate.
    + split; [split; incr|]. split; [repeat split; reflexivity|].
      left. split; [cbn; lia|]. split; [cbn; lia|]. intros i j Hi Hj. cbn in Hi, Hj. destruct i as [|[|[|i]]]; destruct j as [|[|[|j]]]; try lia; reflexivity.
  - exists (qz 1), (qz 2), (qz 6), (qz 6). split; [exists 1, 2; repeat split|]. repeat split; qc.
Qed.
(** the field given to add_field is itself converted *)
Theorem C155_argument_refuted : exists ci s f f' s', sf_addable f /\ sp_add (sf_sops ci) s f = (f', s', None) /\ ux (sg f') <> ux (sg f) /\ ax (sg f') <> ax (sg f).
Proof.
  set (s := mkset (Some (metre, metre, metre)) [f33]).
  destruct (ssf_add noci s in_mm metre metre metre) as (f' & E & U & _ & _ & C & _);
    [discriminate|reflexivity|repeat split; reflexivity|exact in_mm_addable|repeat split|].
  exists noci, s, in_mm, f', (mkset (s_units s) (s_fields s ++ [f'])). split; [exact in_mm_addable|]. split; [exact E|]. split.
  - rewrite U. intro H. apply (f_equal sc) in H. apply (f_equal this) in H. vm_compute in H. discriminate.
  - intro H. destruct (proj2 (C (qz 1) (qz 0) (qz 4))) as (x & y & v & (i & j & E1 & _) & X & _).
    + exists (qz 1000), (qz 0), (qz 4). split; [exists 1, 0; repeat split|]. repeat split; qc.
    + apply nth_error_In in E1. rewrite H in E1. rewrite U in X. apply (f_equal this) in X.
      destruct E1 as [<- |[<- |[<- |[]]]]; vm_compute in X; discriminate.
Qed.
Print Assumptions C155_argument_refuted.
(** a field with nothing shown, or whose shown cells are all in the first column, is refused *)
Definition hidden : sfield := sf_of [0; 1; 2]%Z [0; 1]%Z [] [[true; true]; [true; true]; [true; true]].
Definition first_only : sfield := sf_of [0; 1; 2]%Z [0; 1]%Z [[oz 1; oz 2]; [None; None]; [None; None]] [[false; false]; [true; true]; [true; true]].
Theorem C155_masked_refuted :
  (exists ci f f' s', sf_wf f /\ sf_clean f /\ grid_sorted (sg f) /\ sp_add (sf_sops ci) sp_new f = (f', s', Some IndexErr)) /\
  (exists ci f f' s', sf_wf f /\ sf_clean f /\ grid_sorted (sg f) /\ sf_content f (qz 0) (qz 1) (qz 2) /\ sp_add (sf_sops ci) sp_new f = (f', s', Some ValueErr)).
Proof.
  split.
  - exists noci, hidden. do 2 eexists. split; [repeat split|]. split; [apply clean_b_ok; reflexivity|]. split; [split; incr|]. reflexivity.
  - exists noci, first_only. do 2 eexists. split; [repeat split|]. split; [apply clean_b_ok; reflexivity|]. split; [split; incr|]. split; [|reflexivity].
    exists (qz 0), (qz 1), (qz 2). split; [exists 0, 1; repeat split|]. repeat split; qc.
Qed.
Print Assumptions C155_masked_refuted.

(** ** C156 *)
Theorem C156_scalar_partial ci s x y :
  (forall f, In f (s_fields s) -> grid_sorted (sg f)) ->
  exists inter out, sorted_out sg (s_fields s) x y inter out /\
    (inter = [] -> forall e, sp_value (sf_sops ci) s x y e = if e then Err ValueErr else Ok None) /\
    (inter <> [] -> exists vs r, Forall2 (fun f v => get_value ci f x y = Ok v) inter vs /\ mean_is vs r /\
       forall e, sp_value (sf_sops ci) s x y e = Ok (Some r)).
Proof. exact (ssf_value_lemma ci s x y). Qed.
Print Assumptions C156_scalar_partial.

Theorem C156_vector_partial ci s x y :
  (forall f, In f (s_fields s) -> grid_sorted (vg f)) ->
  exists inter out, sorted_out vg (s_fields s) x y inter out /\
    (inter = [] -> forall e, sp_value (vf_sops ci) s x y e = if e then Err ValueErr else Ok None) /\
    (inter <> [] -> exists vs a b, Forall2 (fun f v => vf_value ci f x y = Ok v) inter vs /\ mean_is (map fst vs) a /\ mean_is (map snd vs) b /\
       forall e, sp_value (vf_sops ci) s x y e = Ok (Some (a, b))).
Proof. exact (svf_value_lemma ci s x y). Qed.
Print Assumptions C156_vector_partial.

Theorem C156_order_partial ci s s' x y e :
  Permutation (s_fields s) (s_fields s') -> sp_value (sf_sops ci) s x y e = sp_value (sf_sops ci) s' x y e.
Proof. exact (ssf_value_order ci s s' x y e). Qed.
Print Assumptions C156_order_partial.

Theorem C156_order_vector_partial ci s s' x y e :
  Permutation (s_fields s) (s_fields s') -> sp_value (vf_sops ci) s x y e = sp_value (vf_sops ci) s' x y e.
Proof. exact (svf_value_order ci s s' x y e). Qed.
Print Assumptions C156_order_vector_partial.

Theorem C156_components_partial ci f x y a b :
  vf_wf f -> vf_tidy f -> grid_sorted (vg f) -> (2 <= length (ax (vg f)))%nat -> (2 <= length (ay (vg f)))%nat -> vf_value ci f x y = Ok (a, b) ->
  exists sx sy, sg sx = vg f /\ sg sy = vg f /\ (forall p q v m, sf_shows sx p q v m <-> exists w, vf_shows f p q v w m) /\ (forall p q w m, sf_shows sy p q w m <-> exists v, vf_shows f p q v w m) /\
    get_value ci sx x y = Ok a /\ get_value ci sy x y = Ok b.
Proof. exact (vf_value_parts ci f x y a b). Qed.
Print Assumptions C156_components_partial.

Example C156_components_example : vf_wf v33 /\ vf_tidy v33 /\ grid_sorted (vg v33) /\ exists v, vf_value noci v33 (qz 1) (qz 1) = Ok v.
Proof. destruct C155_vector_example as [(A & B & C & _) _]. split; [exact A|]. split; [exact B|]. split; [exact C|]. eexists. reflexivity. Qed.
(** the same area, with a hole *)
Definition holed : sfield := sf_of [0; 1; 2]%Z [0; 1; 2]%Z [[oz 1; oz 2; oz 3]; [oz 4; None; oz 6]; [oz 7; oz 8; oz 9]] [[]; [false; true; false]; []].
Definition shifted : sfield := sf_of [0; 1; 4]%Z [0; 1; 2]%Z [[oz 1; oz 2; oz 3]; [oz 4; oz 7; oz 6]; [oz 7; oz 8; oz 9]] [].
Example C156_example : let s := mkset (Some (metre, metre, metre)) [f33; shifted] in
  (forall f, In f (s_fields s) -> grid_sorted (sg f)) /\ match sp_value (sf_sops noci) s (qz 1) (qz 1) true with Ok (Some (Some v)) => qeqb v (qz 6) | _ => false end = true /\
  sp_value (sf_sops noci) s (qz 5) (qz 1) true = Err ValueErr.
Proof.
  cbv zeta. split; [intros f [<- |[<- |[]]]; split; incr|]. split; reflexivity.
Qed.
(** a point on the first line of a field has a value in the field, not in the set *)
Theorem C156_border_refuted : exists ci s f x y v, s_fields s = [f] /\ sf_addable f /\ get_value ci f x y = Ok (Some v) /\ sp_value (sf_sops ci) s x y true = Err ValueErr.
Proof.
  exists noci, (mkset (Some (metre, metre, metre)) [f33]), f33, (qz 0), (qz 1), (qz 2). split; [reflexivity|]. split; [exact f33_addable|]. split; reflexivity.
Qed.
Print Assumptions C156_border_refuted.
(** a point shown by one field and masked in another one has no value *)
Theorem C156_hole_refuted : exists ci s f g x y v, s_fields s = [f; g] /\ sf_addable f /\ sf_addable g /\ get_value ci f x y = Ok (Some v) /\
  sp_value (sf_sops ci) s x y true = Ok (Some None).
Proof.
  exists noci, (mkset (Some (metre, metre, metre)) [f33; holed]), f33, holed, (qz 1), (qz 1), (qz 5). split; [reflexivity|]. split; [exact f33_addable|].
  split; [|split; reflexivity]. split; [repeat split|]. split; [apply clean_b_ok; reflexivity|]. split; [split; incr|]. split; [repeat split; reflexivity|].
  right. split; [exists 1, 0|exists 2, 2]; cbn; repeat split; lia.
Qed.
Print Assumptions C156_hole_refuted.

(** ** C157 *)
Theorem C157_vector_partial ci s X Y a b c :
  increasing X -> increasing Y -> 2 <= List.length X -> 2 <= List.length Y -> s_fields s <> [] -> s_units s = Some (a, b, c) ->
  exists r, svf_on_grid ci s X Y = Ok r /\ vg r = mkgrid X Y a b /\ vuv r = c /\ vf_wf r /\
    forall x y, In x X -> In y Y ->
      exists o, sp_value (vf_sops ci) s x y false = Ok o /\
        match o with
        | Some (Some v, Some w) => vf_shows r x y (Some v) (Some w) false
        | _ => vf_shows r x y None None true
        end.
Proof. exact (svf_grid_lemma ci s X Y a b c). Qed.
Print Assumptions C157_vector_partial.

Example C157_example : increasing (zs [0; 1; 5]%Z) /\ increasing (zs [0; 1]%Z) /\
  match sp_value (vf_sops noci) (mkset (Some (metre, metre, metre)) [v33]) (qz 1) (qz 1) false with Ok (Some (Some v, Some w)) => (qeqb v (qz 5) && qeqb w (qz 5))%bool | _ => false end = true /\
  match sp_value (vf_sops noci) (mkset (Some (metre, metre, metre)) [v33]) (qz 5) (qz 1) false with Ok None => true | _ => false end = true.
Proof. split; [incr|]. split; [incr|]. split; reflexivity. Qed.
(** scalar fields: no grid is ever given *)
Theorem C157_scalar_refuted : forall ci s X Y, exists e, ssf_on_grid ci s X Y = Err e.
Proof. exact ssf_grid_never. Qed.
Print Assumptions C157_scalar_refuted.

(** ** C158 *)
Theorem C158_refuted : forall F V P (o : spops F V) getp join s comp d pos (p : P), sp_profile o getp join s comp d pos <> Ok (Some p).
Proof. intros F V P. exact profile_never. Qed.
Print Assumptions C158_refuted.
(** even for a position inside of a field, a component that exists and a direction of the documentation *)
Theorem C158_raises_refuted : exists f pos, sf_addable f /\ between (ax (sg f)) pos /\
  forall P (getp : sfield -> string -> list num -> res P) join,
  sp_profile (sf_sops noci) getp join (mkset (Some (metre, metre, metre)) [f]) (Some [f]) (PNum 1) [pos] = Err TypeErr.
Proof.
  exists f33, (qz 1). split; [exact f33_addable|]. split; [exists (qz 0), (qz 2); cbn; repeat split; auto|]. intros P getp join. reflexivity.
Qed.
Print Assumptions C158_raises_refuted.

(** ** C159 *)
Theorem C159_scalar : forall ci (s : sset sfield), s_fields s <> [] ->
  (forall f, In f (s_fields s) -> grid_sorted (sg f) /\ ax (sg f) <> [] /\ ay (sg f) <> []) ->
  exists x0 x1 y0 y1, sp_xmin (sf_sops ci) s = Ok x0 /\ sp_xmax (sf_sops ci) s = Ok x1 /\ sp_ymin (sf_sops ci) s = Ok y0 /\ sp_ymax (sf_sops ci) s = Ok y1 /\
    (forall f x y, In f (s_fields s) -> In x (ax (sg f)) -> In y (ay (sg f)) -> (x0 <= x)%num /\ (x <= x1)%num /\ (y0 <= y)%num /\ (y <= y1)%num) /\
    (exists f, In f (s_fields s) /\ In x0 (ax (sg f))) /\ (exists f, In f (s_fields s) /\ In x1 (ax (sg f))) /\
    (exists f, In f (s_fields s) /\ In y0 (ay (sg f))) /\ (exists f, In f (s_fields s) /\ In y1 (ay (sg f))).
Proof. intros ci s. exact (extents_lemma (sf_sops ci) s). Qed.
Print Assumptions C159_scalar.
Theorem C159_vector : forall ci (s : sset vfield), s_fields s <> [] ->
  (forall f, In f (s_fields s) -> grid_sorted (vg f) /\ ax (vg f) <> [] /\ ay (vg f) <> []) ->
  exists x0 x1 y0 y1, sp_xmin (vf_sops ci) s = Ok x0 /\ sp_xmax (vf_sops ci) s = Ok x1 /\ sp_ymin (vf_sops ci) s = Ok y0 /\ sp_ymax (vf_sops ci) s = Ok y1 /\
    (forall f x y, In f (s_fields s) -> In x (ax (vg f)) -> In y (ay (vg f)) -> (x0 <= x)%num /\ (x <= x1)%num /\ (y0 <= y)%num /\ (y <= y1)%num) /\
    (exists f, In f (s_fields s) /\ In x0 (ax (vg f))) /\ (exists f, In f (s_fields s) /\ In x1 (ax (vg f))) /\
    (exists f, In f (s_fields s) /\ In y0 (ay (vg f))) /\ (exists f, In f (s_fields s) /\ In y1 (ay (vg f))).
Proof. intros ci s. exact (extents_lemma (vf_sops ci) s). Qed.
Print Assumptions C159_vector.
Example C159_example : forall f, In f [f33; shifted] -> grid_sorted (sg f) /\ ax (sg f) <> [] /\ ay (sg f) <> [].
Proof. intros f [<- |[<- |[]]]; (split; [split; incr|split; discriminate]). Qed.

(** ** C160 *)
Theorem C160_opposite_partial ci s x y e :
  (forall g i j a b, ci (sf_neg g) i j a b = oneg (ci g i j a b)) ->
  (forall f, In f (s_fields s) -> sf_clean f /\ grid_sorted (sg f)) ->
  s_units (ssf_neg s) = s_units s /\
  sp_value (sf_sops ci) (ssf_neg s) x y e = (let* o := sp_value (sf_sops ci) s x y e in Ok (option_map oneg o)).
Proof. exact (ssf_neg_lemma ci s x y e). Qed.
Print Assumptions C160_opposite_partial.

Theorem C160_multiple_partial ci s k u :
  good_units u -> s_fields s <> [] ->
  (forall f, In f (s_fields s) -> sf_addable f /\ (ux (sg f), uy (sg f), uv f) = u) ->
  exists s', ssf_mul ci s k = Ok s' /\ s_units s' = Some u /\
    Forall2 (fun f f' => (ux (sg f'), uy (sg f'), uv f') = u /\ forall X Y V, sf_content f' X Y V <-> exists V0, sf_content f X Y V0 /\ V = (V0 * k)%num) (s_fields s) (s_fields s').
Proof. exact (ssf_mul_lemma ci s k u). Qed.
Print Assumptions C160_multiple_partial.

Example C160_example : good_units (metre, metre, metre) /\ (forall f, In f [f33; f33] -> sf_addable f /\ (ux (sg f), uy (sg f), uv f) = (metre, metre, metre)).
Proof. split; [repeat split; reflexivity|]. intros f [<- |[<- |[]]]; (split; [exact f33_addable|reflexivity]). Qed.
(** a set with a field cropped to one column with a hole cannot be multiplied *)
Definition column : sfield := sf_of [0; 1; 2]%Z [0; 1; 2]%Z [[]; [oz 1; None; oz 3]; []] [[true; true; true]; [false; true; false]; [true; true; true]].
Theorem C160_refuted : exists ci f k, sf_addable f /\ (exists g, s_fields (sp_adds (sf_sops ci) sp_new [f]) = [g]) /\ ssf_mul ci (sp_adds (sf_sops ci) sp_new [f]) k = Err ValueErr.
Proof.
  exists noci, column, (qz 2). split.
  - split; [repeat split|]. split; [apply clean_b_ok; reflexivity|]. split; [split; incr|]. split; [repeat split; reflexivity|].
    right. split; [exists 1, 0|exists 1, 2]; cbn; repeat split; lia.
  - split; [eexists; reflexivity|]. reflexivity.
Qed.
Print Assumptions C160_refuted.
