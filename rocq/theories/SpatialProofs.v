(** * SpatialProofs: adding fields to a set (C155). *)
From Coq Require Import Lia.
From Verif Require Import Num Res ListLib Arr FieldModel ScalarFieldModel VectorFieldModel FieldSpec FieldProofs2 FieldProofs3 ScalarProofs ProfileModel
  TemporalModel Series2Model Series2Spec Series2Proofs3 SpatialModel SpatialSpec.

(** ** the window of the shown cells *)
Lemma soft_window f : sf_wf f ->
  (exists i j, 0 < i < length (ax (sg f)) /\ j < length (ay (sg f)) /\ at_ (msk f) i j = false) ->
  (exists i j, i < length (ax (sg f)) /\ 0 < j < length (ay (sg f)) /\ at_ (msk f) i j = false) ->
  exists x0 x1 y0 y1,
    first_ok (row_ok f) (d0 (msk f)) = Some x0 /\ last_ok (row_ok f) (d0 (msk f)) = Some x1 /\
    first_ok (col_ok f) (d1 (msk f)) = Some y0 /\ last_ok (col_ok f) (d1 (msk f)) = Some y1 /\
    x0 <= x1 /\ 0 < x1 < length (ax (sg f)) /\ y0 <= y1 /\ 0 < y1 < length (ay (sg f)) /\
    (forall i j, i < length (ax (sg f)) -> j < length (ay (sg f)) -> at_ (msk f) i j = false -> x0 <= i <= x1 /\ y0 <= j <= y1) /\
    (exists j, y0 <= j <= y1 /\ at_ (msk f) x0 j = false) /\ (exists j, y0 <= j <= y1 /\ at_ (msk f) x1 j = false) /\
    (exists i, x0 <= i <= x1 /\ at_ (msk f) i y0 = false) /\ (exists i, x0 <= i <= x1 /\ at_ (msk f) i y1 = false).
Proof.
  intros W (ia & ja & Hia & Hja & Ea) (ib & jb & Hib & Hjb & Eb).
  pose proof W as [[R0 R1] [M0 M1]].
  destruct (first_ok_some (row_ok f) (d0 (msk f)) ia) as [x0 Ex0]; [lia|apply row_ok_iff; exists ja; split; [lia|exact Ea]|].
  destruct (last_ok_some (row_ok f) (d0 (msk f)) ia) as [x1 Ex1]; [lia|apply row_ok_iff; exists ja; split; [lia|exact Ea]|].
  destruct (first_ok_some (col_ok f) (d1 (msk f)) jb) as [y0 Ey0]; [lia|apply col_ok_iff; exists ib; split; [lia|exact Eb]|].
  destruct (last_ok_some (col_ok f) (d1 (msk f)) jb) as [y1 Ey1]; [lia|apply col_ok_iff; exists ib; split; [lia|exact Eb]|].
  exists x0, x1, y0, y1. do 4 (split; [assumption|]).
  apply find_seq_first in Ex0, Ey0. apply find_seq_last in Ex1, Ey1.
  destruct Ex0 as (X1 & X2 & X3), Ex1 as (X4 & X5 & X6), Ey0 as (Y1 & Y2 & Y3), Ey1 as (Y4 & Y5 & Y6).
  assert (Range : forall i j, i < length (ax (sg f)) -> j < length (ay (sg f)) -> at_ (msk f) i j = false -> x0 <= i <= x1 /\ y0 <= j <= y1).
  { intros i j Hi Hj Em.
    assert (row_ok f i = true) as Rk by (apply row_ok_iff; exists j; split; [lia|exact Em]).
    assert (col_ok f j = true) as Ck by (apply col_ok_iff; exists i; split; [lia|exact Em]).
    repeat split.
    - destruct (le_lt_dec x0 i) as [|L]; [assumption|]. rewrite (X3 i L) in Rk. discriminate.
    - destruct (le_lt_dec i x1) as [|L]; [assumption|]. rewrite (X6 i L ltac:(lia)) in Rk. discriminate.
    - destruct (le_lt_dec y0 j) as [|L]; [assumption|]. rewrite (Y3 j L) in Ck. discriminate.
    - destruct (le_lt_dec j y1) as [|L]; [assumption|]. rewrite (Y6 j L ltac:(lia)) in Ck. discriminate. }
  destruct (Range ia ja ltac:(lia) Hja Ea) as [Q1 Q2]. destruct (Range ib jb Hib ltac:(lia) Eb) as [Q3 Q4].
  split; [lia|]. split; [lia|]. split; [lia|]. split; [lia|]. split; [exact Range|].
  apply row_ok_iff in X1, X4. apply col_ok_iff in Y1, Y4.
  destruct X1 as (j1 & L1 & E1), X4 as (j2 & L2 & E2), Y1 as (i1 & L3 & E3), Y4 as (i2 & L4 & E4).
  destruct (Range x0 j1 ltac:(lia) ltac:(lia) E1) as [B1 B2].
  destruct (Range x1 j2 ltac:(lia) ltac:(lia) E2) as [B3 B4].
  destruct (Range i1 y0 ltac:(lia) ltac:(lia) E3) as [B5 B6].
  destruct (Range i2 y1 ltac:(lia) ltac:(lia) E4) as [B7 B8].
  split; [|split; [|split]]; eauto.
Qed.
Lemma zwindow l a b : a <= b -> 0 < b -> crop_window_ind l (zpair a b) = Ok (a, b).
Proof.
  intros H P. unfold crop_window_ind, zpair. replace (Z.of_nat b <? Z.of_nat a)%Z with false by lia.
  replace ((Z.of_nat a <? 0)%Z || (Z.of_nat b =? 0)%Z)%bool with false by lia. cbn [guard]. now rewrite !Nat2Z.id.
Qed.
Lemma part_nth {A} x0 n (l : list A) i : i < n -> nth_error (firstn n (skipn x0 l)) i = nth_error l (x0 + i).
Proof. intro H. rewrite nth_error_firstn by assumption. apply nth_error_skipn. Qed.
Lemma part_inc x0 n l : increasing l -> increasing (firstn n (skipn x0 l)).
Proof. intro I. replace n with ((x0 + n) - x0) by lia. apply (increasing_slice l x0 (x0 + n) I). Qed.

(** ** scalar fields: the border *)
Lemma sf_part_down x0 y0 n m f f' : sf_part x0 y0 n m f f' -> forall x y v k, sf_shows f' x y v k -> sf_shows f x y v k.
Proof.
  intros (EX & EY & _ & _ & _ & _ & C) x y v k (i & j & E1 & E2 & E3 & E4). rewrite EX in E1. rewrite EY in E2.
  assert (Li : i < n) by (pose proof (nth_error_Some_lt _ _ _ E1) as L; rewrite firstn_length in L; lia).
  assert (Lj : j < m) by (pose proof (nth_error_Some_lt _ _ _ E2) as L; rewrite firstn_length in L; lia).
  rewrite part_nth in E1, E2 by assumption. destruct (C i j Li Lj) as [C1 C2]. exists (x0 + i), (y0 + j). rewrite <- C1, <- C2. auto.
Qed.
Lemma sf_part_up x0 y0 n m f f' : sf_part x0 y0 n m f f' ->
  (forall i j, i < length (ax (sg f)) -> j < length (ay (sg f)) -> at_ (msk f) i j = false -> x0 <= i < x0 + n /\ y0 <= j < y0 + m) ->
  forall x y v, sf_shows f x y v false -> sf_shows f' x y v false.
Proof.
  intros (EX & EY & _ & _ & _ & _ & C) R x y v (i & j & E1 & E2 & E3 & E4).
  destruct (R i j (nth_error_Some_lt _ _ _ E1) (nth_error_Some_lt _ _ _ E2) E4) as [R1 R2].
  destruct (C (i - x0) (j - y0)) as [C1 C2]; [lia|lia|]. exists (i - x0), (j - y0). rewrite EX, EY, !part_nth by lia.
  replace (x0 + (i - x0)) with i in * by lia. replace (y0 + (j - y0)) with j in * by lia. rewrite C1, C2. auto.
Qed.
Lemma sf_border_ok f : sf_addable f -> exists f', sf_border f = Ok f' /\ sf_wf f' /\ sf_clean f' /\ grid_sorted (sg f') /\
  ux (sg f') = ux (sg f) /\ uy (sg f') = uy (sg f) /\ uv f' = uv f /\ tight (length (ax (sg f'))) (length (ay (sg f'))) (msk f') /\
  (forall x y v, sf_shows f' x y v false <-> sf_shows f x y v false).
Proof.
  intros (W & C & G & _ & S). unfold sf_border, crop_masked_border. pose proof W as [_ [M0 M1]].
  destruct (any_masked f) eqn:A; cbn [bind].
  - destruct S as [(_ & _ & S)|[S1 S2]].
    { apply any_masked_iff in A. destruct A as (i & j & Hi & Hj & E). rewrite S in E by lia. discriminate. }
    destruct (soft_window f W S1 S2) as (x0 & x1 & y0 & y1 & E1 & E2 & E3 & E4 & L1 & L2 & L3 & L4 & R & B1 & B2 & B3 & B4).
    unfold soft_crop. rewrite E1, E2, E3, E4.
    destruct (sf_cut f (zpair x0 x1) (zpair y0 y1) x0 x1 y0 y1 W) as (f' & E & P & W' & _); [apply zwindow; lia|apply zwindow; lia|].
    cbn [o_cropi sf_ops] in E. rewrite E. cbn [bind]. exists f'. split; [reflexivity|]. cbn [o_grid sf_ops] in P.
    rewrite !Nat.min_l in P by lia. pose proof P as (EX & EY & U1 & U2 & U3 & _ & Cl).
    assert (Nx : length (ax (sg f')) = x1 + 1 - x0) by (rewrite EX, firstn_length, skipn_length; lia).
    assert (Ny : length (ay (sg f')) = y1 + 1 - y0) by (rewrite EY, firstn_length, skipn_length; lia).
    split; [exact W'|]. split; [intros x y v k H; apply (C x y), (sf_part_down _ _ _ _ _ _ P), H|].
    split; [split; [rewrite EX|rewrite EY]; apply part_inc; apply G|]. do 3 (split; [assumption|]). split.
    + rewrite Nx, Ny. destruct B1 as (j1 & J1 & K1), B2 as (j2 & J2 & K2), B3 as (i1 & I1 & K3), B4 as (i2 & I2 & K4). repeat split.
      * exists (j1 - y0). split; [lia|]. destruct (Cl 0 (j1 - y0)) as [_ ->]; [lia|lia|]. rewrite <- K1. f_equal; lia.
      * exists (j2 - y0). split; [lia|]. destruct (Cl (x1 + 1 - x0 - 1) (j2 - y0)) as [_ ->]; [lia|lia|]. rewrite <- K2. f_equal; lia.
      * exists (i1 - x0). split; [lia|]. destruct (Cl (i1 - x0) 0) as [_ ->]; [lia|lia|]. rewrite <- K3. f_equal; lia.
      * exists (i2 - x0). split; [lia|]. destruct (Cl (i2 - x0) (y1 + 1 - y0 - 1)) as [_ ->]; [lia|lia|]. rewrite <- K4. f_equal; lia.
    + intros x y v. split; [apply (sf_part_down _ _ _ _ _ _ P)|apply (sf_part_up _ _ _ _ _ _ P)].
      intros i j Hi Hj H. specialize (R i j Hi Hj H). lia.
  - exists f. split; [reflexivity|]. do 3 (split; [assumption|]). do 3 (split; [reflexivity|]). split; [|reflexivity].
    assert (N : 0 < length (ax (sg f)) /\ 0 < length (ay (sg f))) by (destruct S as [(S1 & S2 & _)|[(i & j & S1 & S2 & _) _]]; lia).
    assert (Z : forall i j, i < length (ax (sg f)) -> j < length (ay (sg f)) -> at_ (msk f) i j = false).
    { intros i j Hi Hj. apply not_true_iff_false. intro E. apply not_true_iff_false in A. apply A, any_masked_iff. exists i, j. lia. }
    repeat split; exists 0; (split; [lia|apply Z; lia]).
Qed.

(** ** scalar fields: the units *)
Lemma phys_back X u : good_unit u -> (X / sc u * sc u)%num = X.
Proof. intro G. apply qdiv_mul. now apply qgt_neq. Qed.
Lemma sf_x_content f f' a : good_unit a -> dim (ux (sg f)) = dim a -> sf_change_unit f AxX a = Ok f' ->
  forall X Y V, sf_content f' X Y V <-> sf_content f X Y V.
Proof.
  intros G D E X Y V. destruct (sf_change_unit_x f a G) as [H _]. destruct (H D) as (f1 & E1 & U1 & U2 & U3 & Sh). rewrite E1 in E. injection E as <-.
  unfold sf_content. rewrite U1, U2, U3. split.
  - intros (x & y & v & S & -> & -> & ->). apply Sh in S. destruct S as (x0 & P & S). exists x0, y, v. auto.
  - intros (x & y & v & S & -> & -> & ->). exists (x * sc (ux (sg f)) / sc a)%num, y, v. rewrite phys_back by assumption. split; [|auto].
    apply Sh. exists x. split; [now apply phys_back|exact S].
Qed.
Lemma sf_y_content f f' a : good_unit a -> dim (uy (sg f)) = dim a -> sf_change_unit f AxY a = Ok f' ->
  forall X Y V, sf_content f' X Y V <-> sf_content f X Y V.
Proof.
  intros G D E X Y V. destruct (sf_change_unit_y f a G) as [H _]. destruct (H D) as (f1 & E1 & U1 & U2 & U3 & Sh). rewrite E1 in E. injection E as <-.
  unfold sf_content. rewrite U1, U2, U3. split.
  - intros (x & y & v & S & -> & -> & ->). apply Sh in S. destruct S as (y0 & P & S). exists x, y0, v. auto.
  - intros (x & y & v & S & -> & -> & ->). exists x, (y * sc (uy (sg f)) / sc a)%num, v. rewrite phys_back by assumption. split; [|auto].
    apply Sh. exists y. split; [now apply phys_back|exact S].
Qed.
Lemma sf_v_content f f' a : good_unit a -> sf_clean f -> dim (uv f) = dim a -> sf_change_unit f AxValues a = Ok f' ->
  forall X Y V, sf_content f' X Y V <-> sf_content f X Y V.
Proof.
  intros G C D E X Y V. destruct (sf_change_unit_v f a G C) as [H _]. destruct (H D) as (f1 & E1 & U1 & U2 & Sh). rewrite E1 in E. injection E as <-.
  unfold sf_content. rewrite U1, U2. split.
  - intros (x & y & v & S & -> & -> & ->). apply Sh in S. destruct S as ([v0|] & P & S); [|contradiction]. exists x, y, v0. cbn in P. auto.
  - intros (x & y & v & S & -> & -> & ->). exists x, y, (v * sc (uv f) / sc a)%num. rewrite phys_back by assumption. split; [|auto].
    apply Sh. exists (Some v). split; [cbn; now apply phys_back|exact S].
Qed.
Lemma conv_pos u w : good_unit u -> good_unit w -> dim u = dim w -> exists k, conv u w = Ok k /\ (0 < k)%num.
Proof.
  intros G H D. destruct (conv_spec u w H) as [C _]. destruct (C D) as (k & E & K). exists k. split; [exact E|].
  unfold good_unit in *. destruct (Qclt_le_dec 0%num k) as [|L]; [assumption|]. exfalso.
  assert (k * sc w <= 0 * sc w)%num by (apply qmul_le_r; [now apply Qclt_le_weak|exact L]). rewrite K in *. qlra.
Qed.
Lemma scaled_inc l k : (0 < k)%num -> increasing l -> increasing (map (fun x => x * k)%num l).
Proof. intros K I. apply increasing_map; [|exact I]. intros a b H. now apply qmul_lt_r. Qed.
Lemma clean_at f i j : sf_clean f -> i < length (ax (sg f)) -> j < length (ay (sg f)) -> at_ (msk f) i j = false -> at_ (raw f) i j <> None.
Proof.
  intros C Hi Hj M N. destruct (nth_error (ax (sg f)) i) as [x|] eqn:EX; [|apply nth_error_None in EX; lia].
  destruct (nth_error (ay (sg f)) j) as [y|] eqn:EY; [|apply nth_error_None in EY; lia].
  assert (K : sf_shows f x y None false) by (exists i, j; cbn [values at_]; rewrite M; auto). apply C in K. destruct K as [K _]. specialize (K eq_refl). discriminate.
Qed.
Lemma sf_convert_ok ci f a b c : good_units (a, b, c) -> good_units (ux (sg f), uy (sg f), uv f) -> sf_wf f -> sf_clean f -> grid_sorted (sg f) ->
  compatible (ux (sg f), uy (sg f), uv f) (a, b, c) ->
  exists f', sp_convert (sf_sops ci) (a, b, c) f = (f', None) /\ sf_wf f' /\ sf_clean f' /\ grid_sorted (sg f') /\ ux (sg f') = a /\ uy (sg f') = b /\ uv f' = c /\
    length (ax (sg f')) = length (ax (sg f)) /\ length (ay (sg f')) = length (ay (sg f)) /\
    (forall i j, i < length (ax (sg f)) -> j < length (ay (sg f)) -> at_ (msk f') i j = at_ (msk f) i j) /\
    (forall X Y V, sf_content f' X Y V <-> sf_content f X Y V).
Proof.
  intros (Ga & Gb & Gc) (Ha & Hb & Hc) W C S (D1 & D2 & D3). unfold sp_convert. cbn [sf_sops p_change].
  destruct (conv_pos _ _ Ha Ga D1) as (ka & Ka & Pa). destruct (conv_pos _ _ Hb Gb D2) as (kb & Kb & Pb). destruct (conv_pos _ _ Hc Gc D3) as (kc & Kc & Pc).
  set (f1 := mksf (mkgrid (map (fun x => x * ka)%num (ax (sg f))) (ay (sg f)) a (uy (sg f))) (raw f) (msk f) (uv f)).
  set (f2 := mksf (mkgrid (ax (sg f1)) (map (fun x => x * kb)%num (ay (sg f))) a b) (raw f) (msk f) (uv f)).
  assert (E1 : sf_change_unit f AxX a = Ok f1) by (unfold sf_change_unit, grid_change_unit; now rewrite Ka).
  assert (E2 : sf_change_unit f1 AxY b = Ok f2) by (unfold sf_change_unit, grid_change_unit; cbn [f1 sg uy]; now rewrite Kb).
  assert (E3 : exists f3, sf_change_unit f2 AxValues c = Ok f3 /\ f3 = mksf (sg f2) (amap (oscale kc) (values f)) (amap isnan (amap (oscale kc) (values f))) c)
    by (unfold sf_change_unit; cbn [f2 uv]; rewrite Kc; eexists; split; reflexivity).
  destruct E3 as (f3 & E3 & Q3). rewrite E1, E2, E3. exists f3. split; [reflexivity|].
  assert (C2 : sf_clean f2).
  { intros x y v m (i & j & N1 & N2 & N3 & N4). cbn [f2 f1 sg ax ay] in N1, N2. rewrite nth_error_map in N1, N2.
    destruct (nth_error (ax (sg f)) i) as [x0|] eqn:EX; [|discriminate]. destruct (nth_error (ay (sg f)) j) as [y0|] eqn:EY; [|discriminate].
    apply (C x0 y0). exists i, j. auto. }
  assert (M : forall i j, i < length (ax (sg f)) -> j < length (ay (sg f)) -> at_ (msk f3) i j = at_ (msk f) i j).
  { intros i j Hi Hj. rewrite Q3. cbn [msk amap at_ values]. rewrite oscale_isnan.
    destruct (at_ (msk f) i j) eqn:EM; [reflexivity|]. pose proof (clean_at f i j C Hi Hj EM). now destruct (at_ (raw f) i j). }
  destruct W as [[R0 R1] [M0 M1]]. split.
  { rewrite Q3. unfold sf_wf, has_shape. cbn [sg f2 f1 ax ay raw msk amap d0 d1 values]. rewrite !map_length. auto. }
  split.
  { intros x y v m (i & j & N1 & N2 & N3 & N4). rewrite Q3 in N3, N4. cbn [msk amap at_ values raw] in N3, N4.
    rewrite !oscale_isnan in *. rewrite N4 in N3. subst v. destruct m; [tauto|]. destruct (if at_ (msk f) i j then None else at_ (raw f) i j); [|discriminate].
    cbn. split; discriminate. }
  split. { rewrite Q3. cbn [sg]. split; cbn [f2 f1 sg ax ay]; apply scaled_inc; try assumption; apply S. }
  do 3 (split; [rewrite Q3; reflexivity|]). do 2 (split; [rewrite Q3; cbn [sg f2 f1 ax ay]; now rewrite map_length|]).
  split; [exact M|]. intros X Y V.
  rewrite (sf_v_content f2 f3 c Gc C2 D3 E3), (sf_y_content f1 f2 b Gb D2 E2), (sf_x_content f f1 a Ga D1 E1). reflexivity.
Qed.
Lemma shows_enough_eq n m k k' : (forall i j, i < n -> j < m -> at_ k' i j = at_ k i j) -> shows_enough n m k -> shows_enough n m k'.
Proof.
  intros H [(A & B & C)|[(i & j & A & B & C) (i' & j' & A' & B' & C')]]; [left|right].
  - do 2 (split; [assumption|]). intros i j Hi Hj. rewrite H by assumption. auto.
  - split; [exists i, j|exists i', j']; rewrite H by lia; auto.
Qed.
Lemma sf_same_shown f f' : (forall x y v, sf_shows f' x y v false <-> sf_shows f x y v false) -> ux (sg f') = ux (sg f) -> uy (sg f') = uy (sg f) -> uv f' = uv f ->
  forall X Y V, sf_content f' X Y V <-> sf_content f X Y V.
Proof.
  intros H U1 U2 U3 X Y V. unfold sf_content. rewrite U1, U2, U3.
  split; intros (x & y & v & S & P); exists x, y, v; (split; [apply H|exact P]); exact S.
Qed.

(** ** adding a scalar field *)
Lemma ssf_first ci s f : s_fields s = [] -> sf_addable f ->
  exists f', sp_add (sf_sops ci) s f = (f', mkset (Some (ux (sg f), uy (sg f), uv f)) [f'], None) /\
    ux (sg f') = ux (sg f) /\ uy (sg f') = uy (sg f) /\ uv f' = uv f /\
    (forall X Y V, sf_content f' X Y V <-> sf_content f X Y V) /\
    tight (length (ax (sg f'))) (length (ay (sg f'))) (msk f').
Proof.
  intros E A. unfold sp_add. rewrite E. unfold sp_append. cbn [sf_sops p_border].
  destruct (sf_border_ok f A) as (f' & EB & _ & _ & _ & U1 & U2 & U3 & T & Sh). rewrite EB. exists f'. split; [reflexivity|].
  do 3 (split; [assumption|]). split; [now apply sf_same_shown|exact T].
Qed.
Lemma ssf_add ci s f a b c : s_fields s <> [] -> s_units s = Some (a, b, c) -> good_units (a, b, c) -> sf_addable f ->
  compatible (ux (sg f), uy (sg f), uv f) (a, b, c) ->
  exists f', sp_add (sf_sops ci) s f = (f', mkset (s_units s) (s_fields s ++ [f']), None) /\
    ux (sg f') = a /\ uy (sg f') = b /\ uv f' = c /\
    (forall X Y V, sf_content f' X Y V <-> sf_content f X Y V) /\
    tight (length (ax (sg f'))) (length (ay (sg f'))) (msk f').
Proof.
  intros NE U G (W & C & S & GF & SE) D. unfold sp_add. destruct (s_fields s) as [|f0 r] eqn:EF; [congruence|]. rewrite U.
  destruct (sf_convert_ok ci f a b c G GF W C S D) as (f1 & E1 & W1 & C1 & S1 & U1 & U2 & U3 & L1 & L2 & M & Cn). rewrite E1.
  unfold sp_append. cbn [sf_sops p_border]. destruct (sf_border_ok f1) as (f' & EB & _ & _ & _ & V1 & V2 & V3 & T & Sh).
  { split; [exact W1|]. split; [exact C1|]. split; [exact S1|]. split; [rewrite U1, U2, U3; exact G|]. rewrite L1, L2. apply (shows_enough_eq _ _ (msk f)); assumption. }
  rewrite EB. rewrite EF, U. exists f'. split; [reflexivity|]. rewrite V1, V2, V3. do 3 (split; [assumption|]). split; [|exact T].
  intros X Y V. rewrite (sf_same_shown f1 f' Sh V1 V2 V3). apply Cn.
Qed.
Lemma ssf_incompatible ci s f a b c : s_fields s <> [] -> s_units s = Some (a, b, c) -> good_units (a, b, c) ->
  ~ compatible (ux (sg f), uy (sg f), uv f) (a, b, c) -> exists f', sp_add (sf_sops ci) s f = (f', s, Some ValueErr).
Proof.
  intros NE U (Ga & Gb & Gc) D. unfold sp_add. destruct (s_fields s) as [|f0 r] eqn:EF; [congruence|]. rewrite U. unfold sp_convert. cbn [sf_sops p_change].
  destruct (list_eq_dec Z.eq_dec (dim (ux (sg f))) (dim a)) as [D1|D1].
  2:{ destruct (sf_change_unit_x f a Ga) as [_ H]. rewrite (H D1). eauto. }
  destruct (sf_change_unit_x f a Ga) as [H _]. destruct (H D1) as (f1 & E1 & U1 & U2 & U3 & _). rewrite E1.
  destruct (list_eq_dec Z.eq_dec (dim (uy (sg f))) (dim b)) as [D2|D2].
  2:{ destruct (sf_change_unit_y f1 b Gb) as [_ K]. rewrite K by congruence. eauto. }
  destruct (sf_change_unit_y f1 b Gb) as [K _]. destruct K as (f2 & E2 & V1 & V2 & V3 & _); [congruence|]. rewrite E2.
  assert (D3 : dim (uv f2) <> dim c) by (intro Q; apply D; cbn; rewrite V3, U3 in Q; auto).
  unfold sf_change_unit at 1. destruct (conv_spec (uv f2) c Gc) as [_ K]. rewrite (K D3). cbn. eauto.
Qed.
