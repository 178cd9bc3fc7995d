From Verif Require Import Num Res ListLib Arr FieldModel ScalarFieldModel VectorFieldModel FieldSpec FieldProofs RotateProofs.

(** ** Generic facts on samples *)
Lemma at_pos_map {A} f g X Y (a : arr A) x' y' v :
  at_pos (map f X) (map g Y) a x' y' v <-> exists x y, x' = f x /\ y' = g y /\ at_pos X Y a x y v.
Proof.
  unfold at_pos. split.
  - intros (i & j & H1 & H2 & H3). apply nth_error_map_inv in H1, H2.
    destruct H1 as (x & H1 & ->), H2 as (y & H2 & ->). exists x, y. repeat split. exists i, j. auto.
  - intros (x & y & -> & -> & i & j & H1 & H2 & H3). exists i, j. rewrite !nth_error_map, H1, H2. auto.
Qed.
Lemma at_pos_flip0 {A} X Y (a : arr A) x y v : d0 a = length X ->
  (at_pos (rev X) Y (aflip0 a) x y v <-> at_pos X Y a x y v).
Proof.
  intro S. unfold at_pos. split.
  - intros (i & j & H1 & H2 & H3). pose proof (nth_error_Some_lt _ _ _ H1) as L. rewrite rev_length in L.
    rewrite nth_error_rev in H1 by exact L. exists (length X - 1 - i), j. simpl in H3. rewrite S in H3. auto.
  - intros (i & j & H1 & H2 & H3). pose proof (nth_error_Some_lt _ _ _ H1) as L.
    exists (length X - 1 - i), j. rewrite nth_error_rev by lia. simpl. rewrite S.
    replace (length X - 1 - (length X - 1 - i)) with i by lia. auto.
Qed.
Lemma at_pos_flip1 {A} X Y (a : arr A) x y v : d1 a = length Y ->
  (at_pos X (rev Y) (aflip1 a) x y v <-> at_pos X Y a x y v).
Proof.
  intro S. unfold at_pos. split.
  - intros (i & j & H1 & H2 & H3). pose proof (nth_error_Some_lt _ _ _ H2) as L. rewrite rev_length in L.
    rewrite nth_error_rev in H2 by exact L. exists i, (length Y - 1 - j). simpl in H3. rewrite S in H3. auto.
  - intros (i & j & H1 & H2 & H3). pose proof (nth_error_Some_lt _ _ _ H2) as L.
    exists i, (length Y - 1 - j). rewrite nth_error_rev by lia. simpl. rewrite S.
    replace (length Y - 1 - (length Y - 1 - j)) with j by lia. auto.
Qed.
Lemma at_pos_amap {A B} (h : A -> B) X Y a x y w :
  at_pos X Y (amap h a) x y w <-> exists v, w = h v /\ at_pos X Y a x y v.
Proof.
  unfold at_pos. split.
  - intros (i & j & H1 & H2 & H3). exists (at_ a i j). split; [now rewrite <- H3|]. exists i, j. auto.
  - intros (v & -> & i & j & H1 & H2 & H3). exists i, j. repeat split; auto. simpl. now rewrite H3.
Qed.

(** ** C05: index crop *)
Lemma crop_window_ind_spec axe iv lo hi : designates (length axe) iv lo hi -> (iv = None \/ 0 < hi) ->
  exists i1, crop_window_ind axe iv = Ok (lo, i1) /\ Nat.min (i1 + 1) (length axe) = hi + 1 /\ lo <= hi /\ hi < length axe.
Proof.
  intros D H. unfold crop_window_ind. destruct iv as [[a b]|]; simpl in D.
  - destruct D as (-> & -> & L1 & L2). destruct H as [H|H]; [discriminate|].
    assert ((Z.of_nat hi <? Z.of_nat lo)%Z = false) as -> by lia. cbn [guard].
    assert (((Z.of_nat lo <? 0) || (Z.of_nat hi =? 0))%Z%bool = false) as -> by lia. cbn [guard].
    rewrite !Nat2Z.id. exists hi. repeat split; auto; lia.
  - destruct D as [-> D].
    assert ((Z.of_nat (length axe) <? 0)%Z = false) as -> by lia. cbn [guard].
    assert (((0 <? 0) || (Z.of_nat (length axe) =? 0))%Z%bool = false) as -> by lia. cbn [guard].
    exists (length axe). rewrite Nat2Z.id. repeat split; auto; lia.
Qed.

Lemma sf_crop_ind_lemma f ivx ivy x0 x1 y0 y1 :
  sf_wf f -> designates (length (ax (sg f))) ivx x0 x1 -> designates (length (ay (sg f))) ivy y0 y1 ->
  (ivx = None \/ 0 < x1) -> (ivy = None \/ 0 < y1) ->
  exists f', sf_crop_ind f ivx ivy = Ok f' /\ sf_wf f' /\
    length (ax (sg f')) = x1 - x0 + 1 /\ length (ay (sg f')) = y1 - y0 + 1 /\
    (forall i, i <= x1 - x0 -> nth_error (ax (sg f')) i = nth_error (ax (sg f)) (x0 + i)) /\
    (forall j, j <= y1 - y0 -> nth_error (ay (sg f')) j = nth_error (ay (sg f)) (y0 + j)) /\
    (forall i j, i <= x1 - x0 -> j <= y1 - y0 ->
       at_ (values f') i j = at_ (values f) (x0 + i) (y0 + j) /\ at_ (msk f') i j = at_ (msk f) (x0 + i) (y0 + j)) /\
    ux (sg f') = ux (sg f) /\ uy (sg f') = uy (sg f) /\ uv f' = uv f.
Proof.
  intros [[R0 R1] [M0 M1]] Dx Dy Hx Hy.
  destruct (crop_window_ind_spec _ _ _ _ Dx Hx) as (i1 & Ex & Mx & Lx & Bx).
  destruct (crop_window_ind_spec _ _ _ _ Dy Hy) as (j1 & Ey & My & Ly & By).
  unfold sf_crop_ind, grid_crop_ind. rewrite Ex, Ey. cbn [bind]. eexists. split; [reflexivity|].
  unfold sf_crop_to, grid_crop_to. cbn [sg ax ay ux uy uv].
  split; [|split; [|split; [|split; [|split; [|split]]]]]; auto.
  - unfold sf_wf, has_shape. cbn [sg ax ay raw msk aslice d0 d1 values]. rewrite !slice_length, R0, R1, M0, M1. auto.
  - rewrite slice_length. lia.
  - rewrite slice_length. lia.
  - intros i Hi. apply nth_error_slice. lia.
  - intros i Hi. apply nth_error_slice. lia.
  - intros i j Hi Hj. cbn [values at_ aslice msk raw]. split; [|reflexivity].
    destruct (at_ (msk f) (x0 + i) (y0 + j)); reflexivity.
Qed.

Lemma vf_crop_ind_lemma f ivx ivy x0 x1 y0 y1 :
  vf_wf f -> designates (length (ax (vg f))) ivx x0 x1 -> designates (length (ay (vg f))) ivy y0 y1 ->
  (ivx = None \/ 0 < x1) -> (ivy = None \/ 0 < y1) ->
  exists f', vf_crop_ind f ivx ivy = Ok f' /\ vf_wf f' /\
    length (ax (vg f')) = x1 - x0 + 1 /\ length (ay (vg f')) = y1 - y0 + 1 /\
    (forall i, i <= x1 - x0 -> nth_error (ax (vg f')) i = nth_error (ax (vg f)) (x0 + i)) /\
    (forall j, j <= y1 - y0 -> nth_error (ay (vg f')) j = nth_error (ay (vg f)) (y0 + j)) /\
    (forall i j, i <= x1 - x0 -> j <= y1 - y0 ->
       at_ (cx f') i j = at_ (cx f) (x0 + i) (y0 + j) /\ at_ (cy f') i j = at_ (cy f) (x0 + i) (y0 + j) /\
       at_ (vmsk f') i j = at_ (vmsk f) (x0 + i) (y0 + j)) /\
    ux (vg f') = ux (vg f) /\ uy (vg f') = uy (vg f) /\ vuv f' = vuv f.
Proof.
  intros ([R0 R1] & [S0 S1] & [M0 M1]) Dx Dy Hx Hy.
  destruct (crop_window_ind_spec _ _ _ _ Dx Hx) as (i1 & Ex & Mx & Lx & Bx).
  destruct (crop_window_ind_spec _ _ _ _ Dy Hy) as (j1 & Ey & My & Ly & By).
  unfold vf_crop_ind, grid_crop_ind. rewrite Ex, Ey. cbn [bind]. eexists. split; [reflexivity|].
  unfold vf_crop_to, grid_crop_to. cbn [vg ax ay ux uy vuv].
  split; [|split; [|split; [|split; [|split; [|split]]]]]; auto.
  - unfold vf_wf, has_shape. cbn [vg ax ay cx cy vmsk aslice d0 d1]. rewrite !slice_length, R0, R1, S0, S1, M0, M1. auto.
  - rewrite slice_length. lia.
  - rewrite slice_length. lia.
  - intros i Hi. apply nth_error_slice. lia.
  - intros i Hi. apply nth_error_slice. lia.
Qed.

(** ** C08: units *)
Lemma dim_eqb_eq a b : dim_eqb a b = true <-> a = b.
Proof. unfold dim_eqb. destruct (list_eq_dec Z.eq_dec a b); split; congruence. Qed.
Lemma conv_spec old new : good_unit new ->
  (dim old = dim new -> exists k, conv old new = Ok k /\ (k * sc new)%num = sc old) /\
  (dim old <> dim new -> conv old new = Err UnitErr).
Proof.
  intro G. unfold conv. split; intro H.
  - apply dim_eqb_eq in H. rewrite H. eexists. split; [reflexivity|]. apply qdiv_mul. now apply qgt_neq.
  - destruct (dim_eqb (dim old) (dim new)) eqn:E; [apply dim_eqb_eq in E; contradiction|reflexivity].
Qed.
Lemma phys_unique k s s' x x' : (0 < s')%num -> (k * s')%num = s -> ((x' * s')%num = (x * s)%num <-> x' = (x * k)%num).
Proof.
  intros G <-. split.
  - intro H. assert ((x' * s' / s')%num = (x * (k * s') / s')%num) as E by congruence.
    rewrite qmul_div in E by now apply qgt_neq. rewrite E. qfield. now apply qgt_neq.
  - intros ->. qring.
Qed.
Lemma oeq_phys_iff k u w a b : (0 < sc u)%num -> (k * sc u)%num = sc w -> (oeq_phys a u b w <-> a = oscale k b).
Proof.
  intros G E. destruct a as [a|], b as [b|]; simpl; try (split; [intros [] | discriminate]); try (split; auto).
  - intro H. f_equal. eapply phys_unique; eauto.
  - intro H. injection H as H. eapply phys_unique; eauto.
Qed.

Lemma sf_change_unit_x f new : good_unit new ->
  (dim (ux (sg f)) = dim new -> exists f', sf_change_unit f AxX new = Ok f' /\
     ux (sg f') = new /\ uy (sg f') = uy (sg f) /\ uv f' = uv f /\
     forall x' y v m, sf_shows f' x' y v m <->
        exists x, (x' * sc new)%num = (x * sc (ux (sg f)))%num /\ sf_shows f x y v m) /\
  (dim (ux (sg f)) <> dim new -> sf_change_unit f AxX new = Err UnitErr).
Proof.
  intro G. destruct (conv_spec (ux (sg f)) new G) as [C1 C2]. split; intro D.
  - destruct (C1 D) as (k & E & K). unfold sf_change_unit, grid_change_unit. rewrite E. cbn [bind].
    eexists. split; [reflexivity|]. repeat split; auto; rewrite ?sf_shows_at; cbn [sg ax ay msk].
    + intro H. rewrite <- (map_id (ay (sg f))) in H. apply at_pos_map in H.
      destruct H as (x & y1 & E1 & E2 & H). exists x. split; [eapply phys_unique; eauto; apply E1|].
      rewrite sf_shows_at. rewrite E2. exact H.
    + intros (x & P & H). rewrite <- (map_id (ay (sg f))). apply at_pos_map. exists x, y.
      rewrite sf_shows_at in H. repeat split; auto. eapply phys_unique; eauto.
  - unfold sf_change_unit, grid_change_unit. rewrite (C2 D). reflexivity.
Qed.
Lemma sf_change_unit_y f new : good_unit new ->
  (dim (uy (sg f)) = dim new -> exists f', sf_change_unit f AxY new = Ok f' /\
     ux (sg f') = ux (sg f) /\ uy (sg f') = new /\ uv f' = uv f /\
     forall x y' v m, sf_shows f' x y' v m <->
        exists y, (y' * sc new)%num = (y * sc (uy (sg f)))%num /\ sf_shows f x y v m) /\
  (dim (uy (sg f)) <> dim new -> sf_change_unit f AxY new = Err UnitErr).
Proof.
  intro G. destruct (conv_spec (uy (sg f)) new G) as [C1 C2]. split; intro D.
  - destruct (C1 D) as (k & E & K). unfold sf_change_unit, grid_change_unit. rewrite E. cbn [bind].
    eexists. split; [reflexivity|]. repeat split; auto; rewrite ?sf_shows_at; cbn [sg ax ay msk].
    + intro H. rewrite <- (map_id (ax (sg f))) in H. apply at_pos_map in H.
      destruct H as (x1 & y & E1 & E2 & H). exists y. split; [eapply phys_unique; eauto; apply E2|].
      rewrite sf_shows_at. rewrite E1. exact H.
    + intros (y & P & H). rewrite <- (map_id (ax (sg f))). apply at_pos_map. exists x, y.
      rewrite sf_shows_at in H. repeat split; auto. eapply phys_unique; eauto.
  - unfold sf_change_unit, grid_change_unit. rewrite (C2 D). reflexivity.
Qed.
Lemma oscale_isnan k a : isnan (oscale k a) = isnan a. Proof. destruct a; reflexivity. Qed.
Lemma clean_isnan v m : (v = None <-> m = true) -> isnan v = m.
Proof. destruct v, m; simpl; intuition congruence. Qed.

(** operations of the form: values := h(values), mask := isnan, on the same axes *)
Lemma sf_shows_set f (h : onum -> onum) g u : (forall a, isnan (h a) = isnan a) -> sf_clean f ->
  ax g = ax (sg f) -> ay g = ay (sg f) ->
  forall x y v' m, sf_shows (mksf g (amap h (values f)) (amap isnan (amap h (values f))) u) x y v' m <->
    exists v, v' = h v /\ sf_shows f x y v m.
Proof.
  intros Hh C Ex Ey x y v' m. unfold sf_shows. cbn [sg]. rewrite Ex, Ey. split.
  - intros (i & j & H1 & H2 & H3 & H4). cbn [values amap at_ d0 d1 msk raw] in H3, H4.
    exists (at_ (values f) i j).
    assert (K : at_ (values f) i j = None <-> at_ (msk f) i j = true) by (apply (C x y); exists i, j; auto).
    pose proof (clean_isnan _ _ K) as N. cbn [values at_] in N, K |- *. rewrite Hh, N in H3, H4.
    split.
    + destruct (at_ (msk f) i j); rewrite <- H3; [|reflexivity].
      specialize (Hh None). destruct (h None); [discriminate|reflexivity].
    + exists i, j. repeat split; auto.
  - intros (v & -> & i & j & H1 & H2 & H3 & H4). exists i, j.
    assert (K : at_ (values f) i j = None <-> at_ (msk f) i j = true) by (apply (C x y); exists i, j; auto).
    pose proof (clean_isnan _ _ K) as N. cbn [values at_ amap msk raw] in *. rewrite Hh, N.
    repeat split; auto. subst v m. destruct (at_ (msk f) i j); [|reflexivity].
    specialize (Hh None). destruct (h None); [discriminate|reflexivity].
Qed.

Lemma sf_change_unit_v f new : good_unit new -> sf_clean f ->
  (dim (uv f) = dim new -> exists f', sf_change_unit f AxValues new = Ok f' /\
     sg f' = sg f /\ uv f' = new /\
     forall x y v' m, sf_shows f' x y v' m <->
        exists v, oeq_phys v' new v (uv f) /\ sf_shows f x y v m) /\
  (dim (uv f) <> dim new -> sf_change_unit f AxValues new = Err UnitErr).
Proof.
  intros G C. destruct (conv_spec (uv f) new G) as [C1 C2]. split; intro D.
  - destruct (C1 D) as (k & E & K). unfold sf_change_unit. rewrite E. cbn [bind].
    eexists. split; [reflexivity|]. split; [reflexivity|]. split; [reflexivity|]. intros x y v' m.
    rewrite sf_shows_set by (auto using oscale_isnan). split; intros (v & H & S); exists v; split; auto;
    eapply oeq_phys_iff; eauto.
  - unfold sf_change_unit. rewrite (C2 D). reflexivity.
Qed.

Lemma vf_change_unit_v f new : good_unit new ->
  (dim (vuv f) = dim new -> exists f', vf_change_unit f AxValues new = Ok f' /\
     vg f' = vg f /\ vuv f' = new /\
     forall x y vx' vy' m, vf_shows f' x y vx' vy' m <->
        exists vx vy, oeq_phys vx' new vx (vuv f) /\ oeq_phys vy' new vy (vuv f) /\ vf_shows f x y vx vy m) /\
  (dim (vuv f) <> dim new -> vf_change_unit f AxValues new = Err UnitErr).
Proof.
  intros G. destruct (conv_spec (vuv f) new G) as [C1 C2]. split; intro D.
  - destruct (C1 D) as (k & E & K). unfold vf_change_unit. rewrite E. cbn [bind].
    eexists. split; [reflexivity|]. split; [reflexivity|]. split; [reflexivity|]. intros x y vx' vy' m.
    split.
    + intros (i & j & H1 & H2 & H3 & H4 & H5). exists (at_ (cx f) i j), (at_ (cy f) i j).
      split; [eapply oeq_phys_iff; eauto|]. split; [eapply oeq_phys_iff; eauto|]. exists i, j. auto.
    + intros (vx & vy & P1 & P2 & i & j & H1 & H2 & H3 & H4 & H5). exists i, j.
      eapply (oeq_phys_iff k) in P1; eauto. eapply (oeq_phys_iff k) in P2; eauto. subst. auto.
  - unfold vf_change_unit. rewrite (C2 D). reflexivity.
Qed.

(** there and back *)
Lemma sf_change_unit_back_x f new f1 : good_unit new -> good_unit (ux (sg f)) ->
  sf_change_unit f AxX new = Ok f1 -> sf_change_unit f1 AxX (ux (sg f)) = Ok f.
Proof.
  intros G G' H. unfold sf_change_unit, grid_change_unit, conv in *. cbn [bind] in *.
  destruct (dim_eqb (dim (ux (sg f))) (dim new)) eqn:E; [|discriminate]. cbn [bind] in H. injection H as <-.
  cbn [sg ux ax ay uy raw msk uv]. apply dim_eqb_eq in E. rewrite E.
  assert (dim_eqb (dim new) (dim new) = true) as -> by (now apply dim_eqb_eq). cbn [bind].
  rewrite map_map. destruct f as [[X Y u w] r m t]. cbn [sg ux ax ay uy raw msk uv] in *. f_equal. f_equal. f_equal.
  rewrite <- (map_id X) at 2. apply map_ext. intro a. qfield. unfold good_unit in *. split; now apply qgt_neq.
Qed.
Lemma sf_change_unit_back_v f new f1 : good_unit new -> good_unit (uv f) -> sf_clean f -> sf_wf f ->
  sf_change_unit f AxValues new = Ok f1 -> exists f2, sf_change_unit f1 AxValues (uv f) = Ok f2 /\ sf_same f2 f.
Proof.
  intros G G' C W H. unfold sf_change_unit, conv in *.
  destruct (dim_eqb (dim (uv f)) (dim new)) eqn:E; [|discriminate]. cbn [bind] in H. injection H as <-.
  apply dim_eqb_eq in E. rewrite E. cbn [uv].
  assert (dim_eqb (dim new) (dim new) = true) as -> by (now apply dim_eqb_eq). cbn [bind].
  eexists. split; [reflexivity|].
  assert (Z : forall a, oscale (sc new / sc (uv f)) (oscale (sc (uv f) / sc new) a) = a).
  { intros [a|]; [|reflexivity]. simpl. f_equal. qfield. unfold good_unit in *. split; now apply qgt_neq. }
  destruct W as [[R0 R1] [M0 M1]].
  assert (Cl : forall i j, i < d0 (raw f) -> j < d1 (raw f) -> isnan (at_ (values f) i j) = at_ (msk f) i j).
  { intros i j Hi Hj. apply clean_isnan. apply (C (nths (ax (sg f)) i) (nths (ay (sg f)) j)).
    exists i, j. repeat split; auto; apply nths_nth_error; congruence. }
  repeat split; auto; cbn [values msk raw amap at_ d0 d1] in *; try congruence.
  - intros i j Hi Hj. rewrite !oscale_isnan. specialize (Cl i j Hi Hj).
    destruct (at_ (msk f) i j); cbn [isnan]; [reflexivity|]. rewrite ?oscale_isnan, ?Cl; cbn [isnan]; rewrite ?oscale_isnan, ?Cl. apply Z.
  - intros i j Hi Hj. rewrite !oscale_isnan. specialize (Cl i j Hi Hj).
    destruct (at_ (msk f) i j); cbn [isnan] in *; [reflexivity|]. rewrite ?oscale_isnan, ?Cl; cbn [isnan]; rewrite ?oscale_isnan, ?Cl. reflexivity.
Qed.

(** ** C09: origin *)
Lemma shift_axis_map l o : shift_axis l o = map (fun a => Qcminus a (match o with Some x => x | None => 0%num end)) l.
Proof.
  destruct o; [reflexivity|]. simpl. rewrite <- (map_id l) at 1. apply map_ext. intro a. qlra.
Qed.
Lemma sf_set_origin_lemma f ox oy :
  let f' := sf_set_origin f ox oy in
  let sx := match ox with Some a => a | None => 0%num end in
  let sy := match oy with Some a => a | None => 0%num end in
  (forall x y v m, sf_shows f' (x - sx)%num (y - sy)%num v m <-> sf_shows f x y v m) /\
  ux (sg f') = ux (sg f) /\ uy (sg f') = uy (sg f) /\ uv f' = uv f /\ (sf_wf f -> sf_wf f').
Proof.
  intros f' sx sy. split; [|repeat split; auto]; subst f'; cbn [sf_set_origin sg grid_set_origin ax ay raw msk];
    rewrite ?shift_axis_map, ?map_length; try apply H.
  intros x y v m. rewrite !sf_shows_at. cbn [sf_set_origin sg grid_set_origin ax ay msk]. rewrite !shift_axis_map.
  fold sx sy. rewrite at_pos_map. split.
  - intros (x1 & y1 & E1 & E2 & H). cbv beta in E1, E2. clearbody sx sy. assert (x = x1) as -> by qlra. assert (y = y1) as -> by qlra. exact H.
  - intro H. exists x, y. auto.
Qed.
Lemma sf_set_origin_back f a b :
  sf_set_origin (sf_set_origin f (Some a) (Some b)) (Some (- a)%num) (Some (- b)%num) = f.
Proof.
  destruct f as [[X Y u w] r m t]. unfold sf_set_origin, grid_set_origin. cbn. rewrite !map_map. f_equal. f_equal.
  - rewrite <- (map_id X) at 2. apply map_ext. intro. qlra.
  - rewrite <- (map_id Y) at 2. apply map_ext. intro. qlra.
Qed.


Lemma scale_axis_cases l u a : nonzero a ->
  exists l' u' b, scale_axis l u a = (l', u', b) /\ b = qltb (sfact a) 0%num /\
   l' = (if b then rev (map (fun x => x * sfact a)%num l) else map (fun x => x * sfact a)%num l).
Proof.
  intro N. destruct a as [|s|s w]; unfold scale_axis, sfact, nonzero in *.
  - exists l, u, false. repeat split. rewrite <- (map_id l) at 1. apply map_ext. intro. qlra.
  - destruct (qltb s 0%num) eqn:E; eexists _, _, _; repeat split; reflexivity.
  - destruct (qltb s 0%num) eqn:E; eexists _, _, _; repeat split; reflexivity.
Qed.
Lemma at_pos_scale {A} X Y (a : arr A) (sx sy : num) x' y' v :
  has_shape a (length X) (length Y) ->
  at_pos (if qltb sx 0%num then rev (map (fun x => x * sx)%num X) else map (fun x => x * sx)%num X)
         (if qltb sy 0%num then rev (map (fun x => x * sy)%num Y) else map (fun x => x * sy)%num Y)
         (match qltb sx 0%num, qltb sy 0%num with
          | true, true => aflip1 (aflip0 a) | true, false => aflip0 a | false, true => aflip1 a | false, false => a
          end) x' y' v
  <-> exists x y, x' = (x * sx)%num /\ y' = (y * sy)%num /\ at_pos X Y a x y v.
Proof.
  intros [S0 S1]. rewrite <- (at_pos_map (fun x => x * sx)%num (fun x => x * sy)%num).
  destruct (qltb sx 0%num), (qltb sy 0%num).
  - rewrite at_pos_flip1 by (simpl; rewrite map_length; exact S1). rewrite at_pos_flip0 by (rewrite map_length; exact S0). reflexivity.
  - rewrite at_pos_flip0 by (rewrite map_length; exact S0). reflexivity.
  - rewrite at_pos_flip1 by (rewrite map_length; exact S1). reflexivity.
  - reflexivity.
Qed.
Lemma scaled_sorted X s : s <> 0%num -> increasing X ->
  increasing (if qltb s 0%num then rev (map (fun x => x * s)%num X) else map (fun x => x * s)%num X).
Proof.
  intros N H. destruct (qltb_spec s 0%num) as [L|L].
  - intros i j Hij Hj. rewrite rev_length, map_length in Hj. rewrite !nths_rev by (rewrite map_length; lia).
    rewrite !map_length. rewrite !nths_map by lia.
    pose proof (H (length X - 1 - j) (length X - 1 - i) ltac:(lia) ltac:(lia)). qnra.
  - apply increasing_map; [|exact H]. intros a b Hab.
    assert (0 < s)%num by (destruct (qle_lt_or_eq _ _ L) as [|E]; [assumption|congruence]).
    apply qmul_lt_r; assumption.
Qed.
Lemma scaled_length X s : length (if qltb s 0%num then rev (map (fun x => x * s)%num X) else map (fun x => x * s)%num X) = length X.
Proof. destruct (qltb s 0%num); rewrite ?rev_length, map_length; reflexivity. Qed.

Lemma sf_scale_lemma f sx sy sv : sf_wf f -> sf_clean f -> grid_sorted (sg f) -> nonzero sx -> nonzero sy ->
  let f' := sf_scale f sx sy sv in
  sf_wf f' /\ grid_sorted (sg f') /\
  forall x' y' v' m, sf_shows f' x' y' v' m <->
    exists x y v, x' = (x * sfact sx)%num /\ y' = (y * sfact sy)%num /\ v' = oscale (sfact sv) v /\ sf_shows f x y v m.
Proof.
  intros [[R0 R1] [M0 M1]] C [HX HY] Nx Ny f'.
  destruct (scale_axis_cases (ax (sg f)) (ux (sg f)) sx Nx) as (X' & u' & bx & Ex & Bx & LX).
  destruct (scale_axis_cases (ay (sg f)) (uy (sg f)) sy Ny) as (Y' & w' & by_ & Ey & By & LY).
  assert (Cl : forall i j, i < length (ax (sg f)) -> j < length (ay (sg f)) -> isnan (at_ (values f) i j) = at_ (msk f) i j).
  { intros i j Hi Hj. apply clean_isnan. apply (C (nths (ax (sg f)) i) (nths (ay (sg f)) j)).
    exists i, j. repeat split; auto; apply nths_nth_error; assumption. }
  (* the cell content before flipping *)
  set (cell := amap (fun p => (oscale (sfact sv) (fst p), snd p)) (zip2 (values f) (msk f))).
  assert (Scell : has_shape cell (length (ax (sg f))) (length (ay (sg f)))) by (split; simpl; assumption).
  assert (Goal1 : ax (sg f') = X' /\ ay (sg f') = Y' /\ d0 (raw f') = d0 (raw f) /\ d1 (raw f') = d1 (raw f) /\
     d0 (msk f') = d0 (raw f) /\ d1 (msk f') = d1 (raw f) /\
     forall i j, i < length (ax (sg f)) -> j < length (ay (sg f)) ->
       at_ (zip2 (values f') (msk f')) i j =
       at_ (match bx, by_ with
          | true, true => aflip1 (aflip0 cell) | true, false => aflip0 cell
          | false, true => aflip1 cell | false, false => cell end) i j).
  { unfold f', sf_scale, grid_scale. rewrite Ex, Ey.
    assert (F : forall i j, i < length (ax (sg f)) -> j < length (ay (sg f)) ->
      forall k, isnan (oscale k (if at_ (msk f) i j then None else at_ (raw f) i j)) = at_ (msk f) i j).
    { intros i j Hi Hj k. rewrite oscale_isnan. apply (Cl i j Hi Hj). }
    assert (G : forall i j, i < length (ax (sg f)) -> j < length (ay (sg f)) -> at_ (msk f) i j = false -> isnan (at_ (raw f) i j) = false).
    { intros i j Hi Hj E. specialize (Cl i j Hi Hj). cbn [values at_] in Cl. rewrite E in Cl. exact Cl. }
    assert (ID : forall a, oscale 1%num a = a).
    { intros [a|]; [|reflexivity]. simpl. f_equal. qlra. }
    destruct sv as [|s|s w]; destruct bx, by_; cbn [sg ax ay raw msk d0 d1 amap aflip0 aflip1 values];
      (split; [reflexivity|]; split; [reflexivity|]; split; [reflexivity|]; split; [reflexivity|];
       split; [solve [reflexivity | congruence]|]; split; [solve [reflexivity | congruence]|]; intros i j Hi Hj);
      unfold zip2, cell, amap, amap2; cbn [sg ax ay raw msk d0 d1 aflip0 aflip1 values at_ fst snd zip2 amap2 sfact];
      rewrite ?ID, ?R0, ?R1;
      repeat match goal with
        | |- context [at_ (msk f) ?a ?b] =>
          let L1 := fresh in let L2 := fresh in
          assert (L1 : a < length (ax (sg f))) by lia; assert (L2 : b < length (ay (sg f))) by lia;
          pose proof (F a b L1 L2) as FF; pose proof (G a b L1 L2) as GG; clear L1 L2;
          destruct (at_ (msk f) a b) eqn:?; cbn [isnan oscale option_map] in *; try reflexivity
        end;
      try (specialize (GG eq_refl)); rewrite ?oscale_isnan, ?GG; cbn [isnan]; rewrite ?oscale_isnan, ?GG; try reflexivity. }
  destruct Goal1 as (A1 & A2 & A3 & A4 & A5 & A6 & A7).
  subst bx by_. split; [|split].
  - unfold sf_wf, has_shape. rewrite A1, A2, A3, A4, A5, A6, LX, LY, !scaled_length. auto.
  - unfold grid_sorted. rewrite A1, A2, LX, LY. split; apply scaled_sorted; assumption.
  - intros x' y' v' m. rewrite sf_shows_at, A1, A2.
    rewrite (at_pos_ext X' Y' _ _ x' y' (v', m) ltac:(intros i j Hi Hj; apply A7; [rewrite LX, scaled_length in Hi; exact Hi | rewrite LY, scaled_length in Hj; exact Hj])).
    rewrite LX, LY. rewrite at_pos_scale by exact Scell. split.
    + intros (x & y & E1 & E2 & H). unfold cell in H. apply at_pos_amap in H. destruct H as ([v m'] & E & H).
      injection E as -> ->. exists x, y, v. repeat split; auto. rewrite sf_shows_at. exact H.
    + intros (x & y & v & E1 & E2 & E3 & H). exists x, y. repeat split; auto. unfold cell. apply at_pos_amap.
      exists (v, m). rewrite sf_shows_at in H. split; [now subst|exact H].
Qed.

(** vector fields: the components follow, with the sign of the factors; the mask only for positive factors *)
Lemma vf_scale_lemma f sx sy sv : vf_wf f -> grid_sorted (vg f) -> nonzero sx -> nonzero sy ->
  let f' := vf_scale f sx sy sv in
  vf_wf f' /\ grid_sorted (vg f') /\
  (forall x' y' vx' vy', (exists m, vf_shows f' x' y' vx' vy' m) <->
    exists x y vx vy, x' = (x * sfact sx)%num /\ y' = (y * sfact sy)%num /\
       vx' = osign (sfact sx) (oscale (sfact sv) vx) /\ vy' = osign (sfact sy) (oscale (sfact sv) vy) /\
       exists m, vf_shows f x y vx vy m) /\
  ((0 < sfact sx)%num -> (0 < sfact sy)%num ->
   forall x' y' vx' vy' m, vf_shows f' x' y' vx' vy' m <->
     exists x y vx vy, x' = (x * sfact sx)%num /\ y' = (y * sfact sy)%num /\
       vx' = oscale (sfact sv) vx /\ vy' = oscale (sfact sv) vy /\ vf_shows f x y vx vy m).
Proof.
  intros ([R0 R1] & [S0 S1] & [M0 M1]) [HX HY] Nx Ny f'.
  destruct (scale_axis_cases (ax (vg f)) (ux (vg f)) sx Nx) as (X' & u' & bx & Ex & Bx & LX).
  destruct (scale_axis_cases (ay (vg f)) (uy (vg f)) sy Ny) as (Y' & w' & by_ & Ey & By & LY).
  set (cell := amap (fun p => (osign (sfact sx) (oscale (sfact sv) (fst p)), osign (sfact sy) (oscale (sfact sv) (snd p))))
                    (zip2 (cx f) (cy f))).
  assert (Scell : has_shape cell (length (ax (vg f))) (length (ay (vg f)))) by (split; simpl; assumption).
  assert (ID : forall a, oscale 1%num a = a).
  { intros [a|]; [|reflexivity]. simpl. f_equal. qlra. }
  assert (Goal1 : ax (vg f') = X' /\ ay (vg f') = Y' /\ d0 (cx f') = d0 (cx f) /\ d1 (cx f') = d1 (cx f) /\
     d0 (cy f') = d0 (cy f) /\ d1 (cy f') = d1 (cy f) /\ vmsk f' = vmsk f /\
     forall i j, at_ (zip2 (cx f') (cy f')) i j =
       at_ (match bx, by_ with
          | true, true => aflip1 (aflip0 cell) | true, false => aflip0 cell
          | false, true => aflip1 cell | false, false => cell end) i j).
  { unfold f', vf_scale, grid_scale. rewrite Ex, Ey.
    destruct sv as [|s|s w]; destruct bx, by_; cbn [vg ax ay cx cy vmsk d0 d1 amap aflip0 aflip1];
      (split; [reflexivity|]; split; [reflexivity|]; split; [reflexivity|]; split; [reflexivity|];
       split; [reflexivity|]; split; [reflexivity|]; split; [reflexivity|]; intros i j);
      unfold zip2, cell, amap, amap2; cbn [vg ax ay cx cy vmsk d0 d1 aflip0 aflip1 at_ fst snd zip2 amap2 sfact];
      unfold osign; rewrite <- ?Bx, <- ?By, ?ID, ?R0, ?R1, ?S0, ?S1; reflexivity. }
  destruct Goal1 as (A1 & A2 & A3 & A4 & A5 & A6 & A7 & A8).
  assert (Main : forall x' y' p, at_pos X' Y' (zip2 (cx f') (cy f')) x' y' p <->
     exists x y, x' = (x * sfact sx)%num /\ y' = (y * sfact sy)%num /\ at_pos (ax (vg f)) (ay (vg f)) cell x y p).
  { intros x' y' p. rewrite (at_pos_ext X' Y' _ _ x' y' p ltac:(intros; apply A8)).
    rewrite LX, LY. subst bx by_. apply at_pos_scale. exact Scell. }
  split; [|split; [|split]].
  - unfold vf_wf, has_shape. rewrite A1, A2, A3, A4, A5, A6, A7, LX, LY. subst bx by_. rewrite !scaled_length. auto.
  - unfold grid_sorted. rewrite A1, A2, LX, LY. subst bx by_. split; apply scaled_sorted; assumption.
  - intros x' y' vx' vy'. split.
    + intros (m & i & j & H1 & H2 & H3 & H4 & H5). rewrite A1 in H1. rewrite A2 in H2.
      assert (P : at_pos X' Y' (zip2 (cx f') (cy f')) x' y' (vx', vy')).
      { exists i, j. repeat split; auto. unfold zip2, amap2. cbn [at_]. congruence. }
      apply Main in P. destruct P as (x & y & E1 & E2 & P). apply at_pos_amap in P.
      destruct P as ([vx vy] & E & a & b & K1 & K2 & K3). injection E as -> ->.
      unfold zip2, amap2 in K3. cbn [at_] in K3. injection K3 as K3 K4.
      exists x, y, vx, vy. repeat split; auto. exists (at_ (vmsk f) a b), a, b. auto.
    + intros (x & y & vx & vy & E1 & E2 & E3 & E4 & m & a & b & K1 & K2 & K3 & K4 & K5).
      assert (P : at_pos X' Y' (zip2 (cx f') (cy f')) x' y' (vx', vy')).
      { apply Main. exists x, y. repeat split; auto. apply at_pos_amap. exists (vx, vy). cbn [fst snd]. split; [congruence|].
        exists a, b. repeat split; auto. unfold zip2, amap2. cbn [at_]. congruence. }
      destruct P as (i & j & H1 & H2 & H3). unfold zip2, amap2 in H3. cbn [at_] in H3. injection H3 as H3 H4.
      exists (at_ (vmsk f') i j), i, j. rewrite A1, A2. auto.
  - intros Px Py x' y' vx' vy' m.
    assert (bx = false) as Fx by (rewrite Bx; apply qltb_ge; qlra).
    assert (by_ = false) as Fy by (rewrite By; apply qltb_ge; qlra).
    clear Main. unfold vf_shows. rewrite A1, A2, A7, LX, LY. rewrite Fx, Fy in *. split.
    + intros (i & j & H1 & H2 & H3 & H4 & H5). apply nth_error_map_inv in H1, H2.
      destruct H1 as (x & H1 & Q1), H2 as (y & H2 & Q2).
      exists x, y, (at_ (cx f) i j), (at_ (cy f) i j). specialize (A8 i j).
      unfold zip2, cell, amap, amap2, osign in A8. cbn [at_ fst snd] in A8. rewrite <- Bx, <- By in A8.
      injection A8 as A8 A9. repeat split; auto; try congruence. exists i, j. auto.
    + intros (x & y & vx & vy & E1 & E2 & E3 & E4 & i & j & K1 & K2 & K3 & K4 & K5). exists i, j.
      rewrite !nth_error_map, K1, K2. specialize (A8 i j).
      unfold zip2, cell, amap, amap2, osign in A8. cbn [at_ fst snd] in A8. rewrite <- Bx, <- By in A8.
      injection A8 as A8 A9. cbn [option_map]. repeat split; congruence.
Qed.

(** ** C11: extend *)
Lemma arange_spec a d n : (0 < d)%num -> forall b, b = (a + d * qn n)%num ->
  arange a b d = map (fun i => a + qn i * d)%num (seq 0 n).
Proof.
  intros Hd b ->. unfold arange. f_equal. f_equal. rewrite <- (Nat2Z.id n) at 2. f_equal.
  replace ((a + d * qn n - a) / d)%num with (qn n) by (qfield; now apply qgt_neq).
  apply Z.le_antisymm.
  - apply qceil_iff. apply qle_refl.
  - pose proof (qceil_ge (qn n)) as H. unfold qn in *. rewrite qz_le in H. exact H.
Qed.
Lemma qn_add a b : qn (a + b) = (qn a + qn b)%num.
Proof. unfold qn. rewrite Nat2Z.inj_add. apply qz_add. Qed.
Lemma qn_nonneg a : (0 <= qn a)%num.
Proof. unfold qn. rewrite qz_le. lia. Qed.
Lemma qn_lt a b : a < b -> (qn a < qn b)%num.
Proof. intro H. unfold qn. rewrite qz_lt. lia. Qed.

Lemma extend_axis_spec l nlo nhi : increasing l -> 2 <= length l ->
  exists l', extend_axis l nlo nhi = Ok l' /\ length l' = nlo + length l + nhi /\ increasing l' /\
   (forall i, i < nlo -> nths l' i = (nths l 0 - (qn nlo - qn i) * (nths l 1 - nths l 0))%num) /\
   (forall i, i < length l -> nth_error l' (nlo + i) = nth_error l i) /\
   (forall i, i < nhi -> nths l' (nlo + length l + i) =
      (nths l (length l - 1) + (qn i + 1) * (nths l (length l - 1) - nths l (length l - 2)))%num).
Proof.
  intros Hi L. unfold extend_axis.
  assert (Nat.ltb (length l) 2 = false) as -> by (apply Nat.ltb_ge; lia). rewrite andb_false_r. cbn [guard].
  set (dl := (nths l 1 - nths l 0)%num). set (n := length l).
  set (dh := (nths l (n - 1) - nths l (n - 2))%num).
  assert (Dl : (0 < dl)%num) by (unfold dl; pose proof (Hi 0 1 ltac:(lia) ltac:(lia)); qlra).
  assert (Dh : (0 < dh)%num) by (unfold dh, n; pose proof (Hi (length l - 2) (length l - 1) ltac:(lia) ltac:(lia)); qlra).
  set (lo := if Nat.eqb nlo 0 then [] else _). set (hi := if Nat.eqb nhi 0 then [] else _).
  assert (Elo : lo = map (fun i => nths l 0 - dl * qn nlo + qn i * dl)%num (seq 0 nlo)).
  { unfold lo. destruct (Nat.eqb_spec nlo 0) as [->|N]; [reflexivity|]. fold dl. apply arange_spec; [exact Dl|]. qring. }
  assert (Ehi : hi = map (fun i => nths l (n - 1) + dh + qn i * dh)%num (seq 0 nhi)).
  { unfold hi. destruct (Nat.eqb_spec nhi 0) as [->|N]; [reflexivity|]. fold n dh. apply arange_spec; [exact Dh|].
    rewrite qn_add. change (qn 1) with 1%num. qring. }
  clearbody lo hi. subst lo hi. eexists. split; [reflexivity|].
  assert (Len : length (map (fun i => nths l 0 - dl * qn nlo + qn i * dl)%num (seq 0 nlo) ++ l ++
                 map (fun i => nths l (n - 1) + dh + qn i * dh)%num (seq 0 nhi)) = nlo + n + nhi).
  { rewrite !app_length, !map_length, !seq_length. unfold n. lia. }
  set (l' := _ ++ l ++ _) in *.
  assert (P1 : forall i, i < nlo -> nths l' i = (nths l 0 - (qn nlo - qn i) * dl)%num).
  { intros i H. unfold l'. rewrite app_nth1 by (rewrite map_length, seq_length; exact H).
    erewrite nth_error_nths; [|rewrite nth_error_map, (nth_error_nth' _ 0) by (rewrite seq_length; exact H); rewrite seq_nth by exact H; reflexivity].
    simpl. qring. }
  assert (P2 : forall i, i < n -> nth_error l' (nlo + i) = nth_error l i).
  { intros i H. unfold l'. rewrite nth_error_app2 by (rewrite map_length, seq_length; lia).
    rewrite map_length, seq_length. replace (nlo + i - nlo) with i by lia. apply nth_error_app1. exact H. }
  assert (P2' : forall i, i < n -> nths l' (nlo + i) = nths l i).
  { intros i H. apply nth_error_nths. rewrite P2 by exact H. now apply nths_nth_error. }
  assert (P3 : forall i, i < nhi -> nths l' (nlo + n + i) = (nths l (n - 1) + (qn i + 1) * dh)%num).
  { intros i H. unfold l'. rewrite app_nth2 by (rewrite map_length, seq_length; lia).
    rewrite map_length, seq_length. rewrite app_nth2 by (fold n; lia).
    replace (nlo + n + i - nlo - length l) with i by (fold n; lia).
    erewrite nth_error_nths; [|rewrite nth_error_map, (nth_error_nth' _ 0) by (rewrite seq_length; exact H); rewrite seq_nth by exact H; reflexivity].
    simpl. qring. }
  split; [exact Len|]. split; [|split; [exact P1|split; [exact P2|exact P3]]].
  intros i j Hij Hj. rewrite Len in Hj.
  assert (Cmp : forall k, k < n -> (nths l 0 <= nths l k)%num /\ (nths l k <= nths l (n - 1))%num).
  { intros k Hk. split; apply increasing_nondecreasing; auto; unfold n in *; lia. }
  assert (Q : forall a, a < nlo -> (1 <= qn nlo - qn a)%num).
  { intros a Ha. replace nlo with (S a + (nlo - S a)) by lia. rewrite qn_add, qn_S. pose proof (qn_nonneg (nlo - S a)). qlra. }
  assert (Lt : forall a b, a < b -> (qn a + 1 <= qn b)%num).
  { intros a b Hab. replace b with (S a + (b - S a)) by lia. rewrite qn_add, qn_S. pose proof (qn_nonneg (b - S a)). qlra. }
  destruct (lt_dec i nlo) as [Ci|Ci]; [|destruct (lt_dec i (nlo + n)) as [Ci2|Ci2]].
  - rewrite P1 by exact Ci. pose proof (Q i Ci) as Qi.
    destruct (lt_dec j nlo) as [Cj|Cj]; [|destruct (lt_dec j (nlo + n)) as [Cj2|Cj2]].
    + rewrite P1 by exact Cj. pose proof (Lt i j Hij). qnra.
    + replace j with (nlo + (j - nlo)) by lia. rewrite P2' by lia. destruct (Cmp (j - nlo) ltac:(lia)). qnra.
    + replace j with (nlo + n + (j - nlo - n)) by lia. rewrite P3 by lia.
      destruct (Cmp 0 ltac:(unfold n; lia)). pose proof (qn_nonneg (j - nlo - n)).
      assert (0 <= (qn nlo - qn i - 1) * dl)%num by (apply qmul_nonneg; qlra).
      assert (0 <= qn (j - nlo - n) * dh)%num by (apply qmul_nonneg; qlra). qlra.
  - replace i with (nlo + (i - nlo)) by lia. rewrite P2' by lia.
    destruct (lt_dec j (nlo + n)) as [Cj2|Cj2].
    + replace j with (nlo + (j - nlo)) by lia. rewrite P2' by lia. apply Hi; [lia|unfold n in *; lia].
    + replace j with (nlo + n + (j - nlo - n)) by lia. rewrite P3 by lia.
      destruct (Cmp (i - nlo) ltac:(lia)). pose proof (qn_nonneg (j - nlo - n)).
      assert (0 <= qn (j - nlo - n) * dh)%num by (apply qmul_nonneg; qlra). qlra.
  - replace i with (nlo + n + (i - nlo - n)) by lia. replace j with (nlo + n + (j - nlo - n)) by lia.
    rewrite !P3 by lia. pose proof (Lt (i - nlo - n) (j - nlo - n) ltac:(lia)). qnra.
Qed.

Lemma not_rev l : increasing l -> l <> [] -> qltb (last l (qz 0)) (nths l 0) = false.
Proof. intros H N. apply qltb_ge. now apply first_le_last. Qed.

(** import of arrays whose shape fits increasing axes with at least two points *)
Lemma sf_import_plain x y v m u w t : increasing x -> increasing y -> 2 <= length x -> 2 <= length y ->
  d0 v = length x -> d1 v = length y ->
  sf_import x y v (Some m) u w t = Ok (mksf (mkgrid x y u w) v (amap2 orb m (amap isnan v)) t).
Proof.
  intros Hx Hy Lx Ly D0 D1. unfold sf_import.
  assert (Nat.ltb (length y) 2 = false) as -> by (apply Nat.ltb_ge; exact Ly).
  assert (Nat.ltb (length x) 2 = false) as -> by (apply Nat.ltb_ge; exact Lx).
  rewrite andb_false_r. cbn [guard].
  assert ((Nat.eqb (length x) (d1 v) && Nat.eqb (length y) (d0 v) && negb (Nat.eqb (length x) (length y)))%bool = false) as ->.
  { rewrite D0, D1. destruct (Nat.eqb_spec (length x) (length y)); [now rewrite andb_false_r|reflexivity]. }
  rewrite !not_rev; auto; intros ->; simpl in *; lia.
Qed.

Lemma sf_extend_lemma f nl nr nu nd value :
  sf_wf f -> sf_clean f -> grid_sorted (sg f) -> 2 <= length (ax (sg f)) -> 2 <= length (ay (sg f)) ->
  exists f', sf_extend f nl nr nu nd value true = Ok f' /\ sf_wf f' /\ grid_sorted (sg f') /\
    (forall x y v m, In x (ax (sg f)) -> In y (ay (sg f)) -> (sf_shows f' x y v m <-> sf_shows f x y v m)) /\
    (forall x y v m, sf_shows f' x y v m -> ~ (In x (ax (sg f)) /\ In y (ay (sg f))) ->
        match value with None => m = true /\ v = None | Some c => m = false /\ v = Some c end) /\
    (extend_axis (ax (sg f)) nl nr = Ok (ax (sg f')) /\ extend_axis (ay (sg f)) nd nu = Ok (ay (sg f'))) /\
    ux (sg f') = ux (sg f) /\ uy (sg f') = uy (sg f) /\ uv f' = uv f.
Proof.
  intros [[R0 R1] [M0 M1]] C [HX HY] LX LY.
  destruct (extend_axis_spec (ax (sg f)) nl nr HX LX) as (X' & EX & LX' & SX' & _ & PX & _).
  destruct (extend_axis_spec (ay (sg f)) nd nu HY LY) as (Y' & EY & LY' & SY' & _ & PY & _).
  unfold sf_extend, grid_extend. rewrite EX, EY. cbn [bind ax ay ux uy].
  rewrite sf_import_plain; cbn [ablit d0 d1]; try assumption; try lia;
    try (destruct value; reflexivity).
  eexists. split; [reflexivity|]. cbn [sg ax ay ux uy uv].
  assert (Cl : forall i j, i < length (ax (sg f)) -> j < length (ay (sg f)) -> isnan (at_ (values f) i j) = at_ (msk f) i j).
  { intros i j Hi Hj. apply clean_isnan. apply (C (nths (ax (sg f)) i) (nths (ay (sg f)) j)).
    exists i, j. repeat split; auto; apply nths_nth_error; assumption. }
  set (v' := ablit _ (values f) nl nd). set (m' := ablit _ (msk f) nl nd).
  assert (Hin : forall i j, i < length (ax (sg f)) -> j < length (ay (sg f)) ->
     at_ v' (nl + i) (nd + j) = at_ (values f) i j /\ at_ m' (nl + i) (nd + j) = at_ (msk f) i j).
  { intros i j Hi Hj. unfold v', m', ablit. cbn [at_ d0 d1 values]. rewrite R0, R1, M0, M1.
    assert ((Nat.leb nl (nl + i) && Nat.ltb (nl + i) (nl + length (ax (sg f))) && Nat.leb nd (nd + j)
       && Nat.ltb (nd + j) (nd + length (ay (sg f))))%bool = true) as ->.
    { rewrite !andb_true_iff, !Nat.leb_le, !Nat.ltb_lt. lia. }
    replace (nl + i - nl) with i by lia. replace (nd + j - nd) with j by lia. auto. }
  assert (Hout : forall i j, ~ (nl <= i < nl + length (ax (sg f)) /\ nd <= j < nd + length (ay (sg f))) ->
     at_ v' i j = (match value with None => Some 0%num | Some c => Some c end) /\
     at_ m' i j = (match value with None => true | Some _ => false end)).
  { intros i j H. unfold v', m', ablit. cbn [at_ d0 d1 values]. rewrite R0, R1, M0, M1.
    assert ((Nat.leb nl i && Nat.ltb i (nl + length (ax (sg f))) && Nat.leb nd j
       && Nat.ltb j (nd + length (ay (sg f))))%bool = false) as ->.
    { apply not_true_iff_false. rewrite !andb_true_iff, !Nat.leb_le, !Nat.ltb_lt. lia. }
    destruct value; auto. }
  assert (Dv : d0 v' = length X' /\ d1 v' = length Y' /\ d0 m' = length X' /\ d1 m' = length Y').
  { unfold v', m', ablit. destruct value; cbn [d0 d1 afull]; auto. }
  destruct Dv as (V0 & V1 & W0 & W1).
  assert (InX : forall i x, nth_error X' i = Some x -> (In x (ax (sg f)) <-> nl <= i < nl + length (ax (sg f)))).
  { intros i x Hi. split.
    - intro K. apply In_nth_error in K. destruct K as [k K]. pose proof (nth_error_Some_lt _ _ _ K) as Lk.
      rewrite <- PX in K by exact Lk. pose proof (nth_error_Some_lt _ _ _ K). pose proof (nth_error_Some_lt _ _ _ Hi).
      apply nth_error_nths in K, Hi. rewrite <- Hi in K. apply increasing_inj in K; auto. lia.
    - intro K. replace i with (nl + (i - nl)) in Hi by lia. rewrite PX in Hi by lia. eapply nth_error_In; eauto. }
  assert (InY : forall i x, nth_error Y' i = Some x -> (In x (ay (sg f)) <-> nd <= i < nd + length (ay (sg f)))).
  { intros i x Hi. split.
    - intro K. apply In_nth_error in K. destruct K as [k K]. pose proof (nth_error_Some_lt _ _ _ K) as Lk.
      rewrite <- PY in K by exact Lk. pose proof (nth_error_Some_lt _ _ _ K). pose proof (nth_error_Some_lt _ _ _ Hi).
      apply nth_error_nths in K, Hi. rewrite <- Hi in K. apply increasing_inj in K; auto. lia.
    - intro K. replace i with (nd + (i - nd)) in Hi by lia. rewrite PY in Hi by lia. eapply nth_error_In; eauto. }
  split; [|split; [|split; [|split; [|split]]]]; auto.
  - split; split; cbn [sg ax ay raw msk amap2 d0 d1]; assumption.
  - split; assumption.
  - intros x y v m Ix Iy. unfold sf_shows. cbn [sg ax ay msk amap2 amap at_ values raw]. split.
    + intros (i & j & H1 & H2 & H3 & H4).
      pose proof (proj1 (InX _ _ H1) Ix) as Bi. pose proof (proj1 (InY _ _ H2) Iy) as Bj.
      replace i with (nl + (i - nl)) in * by lia. replace j with (nd + (j - nd)) in * by lia.
      set (i1 := i - nl) in *. set (j1 := j - nd) in *.
      destruct (Hin i1 j1 ltac:(lia) ltac:(lia)) as [Ev Em]. rewrite Ev, Em in *.
      rewrite PX in H1 by lia. rewrite PY in H2 by lia.
      exists i1, j1. rewrite (Cl i1 j1) in * by lia. cbn [values at_] in *.
      destruct (at_ (msk f) i1 j1); cbn [orb] in *; auto.
    + intros (i & j & H1 & H2 & H3 & H4).
      pose proof (nth_error_Some_lt _ _ _ H1). pose proof (nth_error_Some_lt _ _ _ H2).
      destruct (Hin i j ltac:(lia) ltac:(lia)) as [Ev Em].
      exists (nl + i), (nd + j). rewrite Ev, Em, PX, PY, (Cl i j) by assumption. cbn [values at_] in *.
      destruct (at_ (msk f) i j); cbn [orb] in *; auto.
  - intros x y v m (i & j & H1 & H2 & H3 & H4) N. cbn [sg ax ay msk amap2 amap at_ values raw] in *.
    rewrite (InX _ _ H1), (InY _ _ H2) in N. destruct (Hout i j N) as [Ev Em]. rewrite Ev, Em in *.
    destruct value; cbn [isnan orb] in *; auto.
Qed.

Lemma sf_extend_copy f nl nr nu nd value :
  grid_sorted (sg f) -> 2 <= length (ax (sg f)) -> 2 <= length (ay (sg f)) ->
  sf_extend f nl nr nu nd value false = Err NameErr.
Proof.
  intros [HX HY] LX LY.
  destruct (extend_axis_spec (ax (sg f)) nl nr HX LX) as (X' & EX & _).
  destruct (extend_axis_spec (ay (sg f)) nd nu HY LY) as (Y' & EY & _).
  unfold sf_extend, grid_extend. rewrite EX, EY. reflexivity.
Qed.

(** ** C12: discs *)
Lemma in_zrange a b z : In z (zrange a b) <-> (a <= z < b)%Z.
Proof.
  unfold zrange. rewrite in_map_iff. split.
  - intros (k & <- & H). apply in_seq in H. lia.
  - intro H. exists (Z.to_nat (z - a)). rewrite in_seq. lia.
Qed.
Lemma NoDup_zrange a b : NoDup (zrange a b).
Proof. unfold zrange. apply FinFun.Injective_map_NoDup; [|apply seq_NoDup]. intros x y H. lia. Qed.

Lemma keep_around_spec cx cy r i j : (0 < r)%num ->
  keep_around cx cy r (i, j) = true <->
  ((qz i - cx) * (qz i - cx) + (qz j - cy) * (qz j - cy) <= r * r)%num.
Proof.
  intro Hr. unfold keep_around. cbn [fst snd].
  set (a := (qz i - cx)%num). set (b := (qz j - cy)%num).
  replace (cx - qz i)%num with (- a)%num by (unfold a; qlra).
  replace (cy - qz j)%num with (- b)%num by (unfold b; qlra).
  assert (LI : forall d, le_int d r = true -> le_int (- d)%num r = true -> (2 * (d * d) <= r * r)%num).
  { intros d. unfold le_int. rewrite !orb_true_iff, !qleb_le. intros [H1|H1] [H2|H2]; try assumption.
    - assert (d = 0%num) as -> by qlra. qnra.
    - qnra. }
  destruct (le_int a r && le_int (- a)%num r && le_int b r && le_int (- b)%num r)%bool eqn:E.
  - rewrite !andb_true_iff in E. destruct E as [[[E1 E2] E3] E4].
    pose proof (LI _ E1 E2). pose proof (LI _ E3 E4). split; [intros _; qlra|reflexivity].
  - destruct (qeqb (qz i) cx && qeqb (qz j) cy)%bool eqn:E2.
    + exfalso. rewrite andb_true_iff, !qeqb_eq in E2. destruct E2 as [E2 E3].
      assert (a = 0%num) as Ea by (unfold a; rewrite E2; qlra). assert (b = 0%num) as Eb by (unfold b; rewrite E3; qlra).
      rewrite Ea, Eb in E. unfold le_int in E.
      assert (qleb 0%num 0%num = true) as Q by (apply qleb_le, qle_refl).
      assert (qleb (- 0)%num 0%num = true) as Q2 by (apply qleb_le; qlra).
      rewrite Q, Q2 in E. discriminate.
    + apply qleb_le.
Qed.
Lemma points_around_lemma cx cy r :
  ((r <= 0)%num -> points_around_ind cx cy r = Err ValueErr) /\
  ((0 < r)%num -> exists l, points_around_ind cx cy r = Ok l /\ NoDup l /\
     forall i j, In (i, j) l <-> ((qz i - cx) * (qz i - cx) + (qz j - cy) * (qz j - cy) <= r * r)%num).
Proof.
  unfold points_around_ind. split; intro Hr.
  - assert (qltb 0%num r = false) as -> by (now apply qltb_ge). reflexivity.
  - assert (qltb 0%num r = true) as -> by (now apply qltb_lt). cbn [negb guard]. eexists. split; [reflexivity|]. split.
    + apply NoDup_filter. apply NoDup_flat_map.
      * apply NoDup_zrange.
      * intros b _. apply FinFun.Injective_map_NoDup; [|apply NoDup_zrange]. intros x y H. now injection H.
      * intros a b p _ _ H1 H2. rewrite in_map_iff in H1, H2. destruct H1 as (x & <- & _), H2 as (y & E & _). now injection E.
    + intros i j. rewrite filter_In, keep_around_spec by exact Hr. split; [tauto|]. intro H. split; [|exact H].
      assert (SQ : forall a b, (a * a + b * b <= r * r)%num -> (- r <= a)%num /\ (a <= r)%num).
      { intros a b K. pose proof (qsq_nonneg b). split.
        - destruct (qleb_spec (- r)%num a) as [|L]; [assumption|]. exfalso. qnra.
        - destruct (qleb_spec a r) as [|L]; [assumption|]. exfalso. qnra. }
      destruct (SQ _ _ H) as [A1 A2].
      destruct (SQ (qz j - cy)%num (qz i - cx)%num) as [B1 B2]; [qlra|].
      apply in_flat_map. exists j. split.
      * apply in_zrange. split; [apply qceil_iff; qlra|]. apply Z.lt_succ_r. rewrite qfloor_iff. qlra.
      * apply in_map_iff. exists i. split; [reflexivity|]. apply in_zrange.
        split; [apply qceil_iff; qlra|]. apply Z.lt_succ_r. rewrite qfloor_iff. qlra.
Qed.
