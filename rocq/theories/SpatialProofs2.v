(** * SpatialProofs2: adding vector fields to a set, histories of additions (C155). *)
From Coq Require Import Lia.
From Verif Require Import Num Res ListLib Arr FieldModel ScalarFieldModel VectorFieldModel FieldSpec FieldProofs2 FieldProofs3 ScalarProofs ProfileModel
  TemporalModel Series2Model Series2Spec Series2Proofs3 SpatialModel SpatialSpec SpatialProofs.

Lemma vf_part_down x0 y0 n m f f' : vf_part x0 y0 n m f f' -> forall x y v w k, vf_shows f' x y v w k -> vf_shows f x y v w k.
Proof.
  intros (EX & EY & _ & _ & _ & _ & C) x y v w k (i & j & E1 & E2 & E3 & E4 & E5). rewrite EX in E1. rewrite EY in E2.
  assert (Li : i < n) by (pose proof (nth_error_Some_lt _ _ _ E1) as L; rewrite firstn_length in L; lia).
  assert (Lj : j < m) by (pose proof (nth_error_Some_lt _ _ _ E2) as L; rewrite firstn_length in L; lia).
  rewrite part_nth in E1, E2 by assumption. destruct (C i j Li Lj) as (C1 & C2 & C3). exists (x0 + i), (y0 + j). rewrite <- C1, <- C2, <- C3. auto.
Qed.
Lemma vf_part_up x0 y0 n m f f' : vf_part x0 y0 n m f f' ->
  (forall i j, i < length (ax (vg f)) -> j < length (ay (vg f)) -> at_ (vmsk f) i j = false -> x0 <= i < x0 + n /\ y0 <= j < y0 + m) ->
  forall x y v w, vf_shows f x y v w false -> vf_shows f' x y v w false.
Proof.
  intros (EX & EY & _ & _ & _ & _ & C) R x y v w (i & j & E1 & E2 & E3 & E4 & E5).
  destruct (R i j (nth_error_Some_lt _ _ _ E1) (nth_error_Some_lt _ _ _ E2) E5) as [R1 R2].
  destruct (C (i - x0) (j - y0)) as (C1 & C2 & C3); [lia|lia|]. exists (i - x0), (j - y0). rewrite EX, EY, !part_nth by lia.
  replace (x0 + (i - x0)) with i in * by lia. replace (y0 + (j - y0)) with j in * by lia. rewrite C1, C2, C3. auto.
Qed.
Lemma vf_border_ok f : vf_addable f -> exists f', vf_border f = Ok f' /\ vf_wf f' /\ vf_tidy f' /\ grid_sorted (vg f') /\
  ux (vg f') = ux (vg f) /\ uy (vg f') = uy (vg f) /\ vuv f' = vuv f /\ tight (length (ax (vg f'))) (length (ay (vg f'))) (vmsk f') /\
  (forall x y v w, vf_shows f' x y v w false <-> vf_shows f x y v w false).
Proof.
  intros (W & C & G & _ & S). unfold vf_border. set (s := mksf (vg f) (cx f) (vmsk f) (vuv f)). pose proof W as (X0 & Y0 & [M0 M1]).
  assert (Ws : sf_wf s) by (split; [exact X0|split; assumption]).
  destruct (any_masked s) eqn:A.
  - destruct S as [(_ & _ & S)|[S1 S2]].
    { apply any_masked_iff in A. destruct A as (i & j & Hi & Hj & E). cbn [s msk] in *. rewrite S in E by lia. discriminate. }
    destruct (soft_window s Ws S1 S2) as (x0 & x1 & y0 & y1 & E1 & E2 & E3 & E4 & L1 & L2 & L3 & L4 & R & B1 & B2 & B3 & B4).
    cbn [s msk sg] in E1, E2, E3, E4, L2, L4, R, B1, B2, B3, B4. fold s in E1, E2, E3, E4. rewrite E1, E2, E3, E4.
    destruct (vf_cut f (zpair x0 x1) (zpair y0 y1) x0 x1 y0 y1 W) as (f' & E & P & W' & _); [apply zwindow; lia|apply zwindow; lia|].
    cbn [o_cropi vf_ops] in E. rewrite E. exists f'. split; [reflexivity|]. cbn [o_grid vf_ops] in P.
    rewrite !Nat.min_l in P by lia. pose proof P as (EX & EY & U1 & U2 & U3 & _ & Cl).
    assert (Nx : length (ax (vg f')) = x1 + 1 - x0) by (rewrite EX, firstn_length, skipn_length; lia).
    assert (Ny : length (ay (vg f')) = y1 + 1 - y0) by (rewrite EY, firstn_length, skipn_length; lia).
    split; [exact W'|]. split; [intros x y v w k H; apply (C x y), (vf_part_down _ _ _ _ _ _ P), H|].
    split; [split; [rewrite EX|rewrite EY]; apply part_inc; apply G|]. do 3 (split; [assumption|]). split.
    + rewrite Nx, Ny. destruct B1 as (j1 & J1 & K1), B2 as (j2 & J2 & K2), B3 as (i1 & I1 & K3), B4 as (i2 & I2 & K4). repeat split.
      * exists (j1 - y0). split; [lia|]. destruct (Cl 0 (j1 - y0)) as (_ & _ & ->); [lia|lia|]. rewrite <- K1. f_equal; lia.
      * exists (j2 - y0). split; [lia|]. destruct (Cl (x1 + 1 - x0 - 1) (j2 - y0)) as (_ & _ & ->); [lia|lia|]. rewrite <- K2. f_equal; lia.
      * exists (i1 - x0). split; [lia|]. destruct (Cl (i1 - x0) 0) as (_ & _ & ->); [lia|lia|]. rewrite <- K3. f_equal; lia.
      * exists (i2 - x0). split; [lia|]. destruct (Cl (i2 - x0) (y1 + 1 - y0 - 1)) as (_ & _ & ->); [lia|lia|]. rewrite <- K4. f_equal; lia.
    + intros x y v w. split; [apply (vf_part_down _ _ _ _ _ _ P)|apply (vf_part_up _ _ _ _ _ _ P)].
      intros i j Hi Hj H. specialize (R i j Hi Hj H). lia.
  - exists f. split; [reflexivity|]. do 3 (split; [assumption|]). do 3 (split; [reflexivity|]). split; [|reflexivity].
    assert (N : 0 < length (ax (vg f)) /\ 0 < length (ay (vg f))) by (destruct S as [(S1 & S2 & _)|[(i & j & S1 & S2 & _) _]]; lia).
    assert (Z : forall i j, i < length (ax (vg f)) -> j < length (ay (vg f)) -> at_ (vmsk f) i j = false).
    { intros i j Hi Hj. apply not_true_iff_false. intro E. apply not_true_iff_false in A. apply A, any_masked_iff. exists i, j. cbn [s msk]. lia. }
    repeat split; exists 0; (split; [lia|apply Z; lia]).
Qed.

Lemma vf_x_content f f' a : good_unit a -> dim (ux (vg f)) = dim a -> vf_change_unit f AxX a = Ok f' ->
  forall X Y V W, vf_content f' X Y V W <-> vf_content f X Y V W.
Proof.
  intros G D E X Y V W. destruct (vf_change_unit_axis f a AxX (or_introl eq_refl) G) as [H _]. destruct (H D) as (f1 & E1 & U3 & U1 & U2 & Sh). rewrite E1 in E. injection E as <-.
  unfold vf_content. rewrite U1, U2, U3. split.
  - intros (x & y & v & w & S & -> & -> & -> & ->). apply Sh in S. destruct S as (x0 & y0 & S & P & ->). exists x0, y0, v, w. auto.
  - intros (x & y & v & w & S & -> & -> & -> & ->). exists (x * sc (ux (vg f)) / sc a)%num, y, v, w. rewrite phys_back by assumption. split; [|auto].
    apply Sh. exists x, y. split; [exact S|]. split; [now apply phys_back|reflexivity].
Qed.
Lemma vf_y_content f f' a : good_unit a -> dim (uy (vg f)) = dim a -> vf_change_unit f AxY a = Ok f' ->
  forall X Y V W, vf_content f' X Y V W <-> vf_content f X Y V W.
Proof.
  intros G D E X Y V W. destruct (vf_change_unit_axis f a AxY (or_intror eq_refl) G) as [H _]. destruct (H D) as (f1 & E1 & U3 & U1 & U2 & Sh). rewrite E1 in E. injection E as <-.
  unfold vf_content. rewrite U1, U2, U3. split.
  - intros (x & y & v & w & S & -> & -> & -> & ->). apply Sh in S. destruct S as (x0 & y0 & S & -> & P). exists x0, y0, v, w. auto.
  - intros (x & y & v & w & S & -> & -> & -> & ->). exists x, (y * sc (uy (vg f)) / sc a)%num, v, w. rewrite phys_back by assumption. split; [|auto].
    apply Sh. exists x, y. split; [exact S|]. split; [reflexivity|now apply phys_back].
Qed.
Lemma vf_v_content f f' a : good_unit a -> dim (vuv f) = dim a -> vf_change_unit f AxValues a = Ok f' ->
  forall X Y V W, vf_content f' X Y V W <-> vf_content f X Y V W.
Proof.
  intros G D E X Y V W. destruct (vf_change_unit_v f a G) as [H _]. destruct (H D) as (f1 & E1 & U1 & U2 & Sh). rewrite E1 in E. injection E as <-.
  unfold vf_content. rewrite U1, U2. split.
  - intros (x & y & v & w & S & -> & -> & -> & ->). apply Sh in S. destruct S as ([v0|] & [w0|] & P1 & P2 & S); try contradiction. exists x, y, v0, w0. cbn in P1, P2. auto.
  - intros (x & y & v & w & S & -> & -> & -> & ->). exists x, y, (v * sc (vuv f) / sc a)%num, (w * sc (vuv f) / sc a)%num. rewrite !phys_back by assumption. split; [|auto].
    apply Sh. exists (Some v), (Some w). split; [cbn; now apply phys_back|]. split; [cbn; now apply phys_back|exact S].
Qed.
Lemma vf_convert_ok ci f a b c : good_units (a, b, c) -> good_units (ux (vg f), uy (vg f), vuv f) -> vf_wf f -> vf_tidy f -> grid_sorted (vg f) ->
  compatible (ux (vg f), uy (vg f), vuv f) (a, b, c) ->
  exists f', sp_convert (vf_sops ci) (a, b, c) f = (f', None) /\ vf_wf f' /\ vf_tidy f' /\ grid_sorted (vg f') /\ ux (vg f') = a /\ uy (vg f') = b /\ vuv f' = c /\
    length (ax (vg f')) = length (ax (vg f)) /\ length (ay (vg f')) = length (ay (vg f)) /\
    (forall i j, at_ (vmsk f') i j = at_ (vmsk f) i j) /\
    (forall X Y V W, vf_content f' X Y V W <-> vf_content f X Y V W).
Proof.
  intros (Ga & Gb & Gc) (Ha & Hb & Hc) W C S (D1 & D2 & D3). unfold sp_convert. cbn [vf_sops p_change].
  destruct (conv_pos _ _ Ha Ga D1) as (ka & Ka & Pa). destruct (conv_pos _ _ Hb Gb D2) as (kb & Kb & Pb). destruct (conv_pos _ _ Hc Gc D3) as (kc & Kc & Pc).
  set (f1 := mkvf (mkgrid (map (fun x => x * ka)%num (ax (vg f))) (ay (vg f)) a (uy (vg f))) (cx f) (cy f) (vmsk f) (vuv f)).
  set (f2 := mkvf (mkgrid (ax (vg f1)) (map (fun x => x * kb)%num (ay (vg f))) a b) (cx f) (cy f) (vmsk f) (vuv f)).
  assert (E1 : vf_change_unit f AxX a = Ok f1) by (unfold vf_change_unit, grid_change_unit; now rewrite Ka).
  assert (E2 : vf_change_unit f1 AxY b = Ok f2) by (unfold vf_change_unit, grid_change_unit; cbn [f1 vg uy]; now rewrite Kb).
  assert (E3 : exists f3, vf_change_unit f2 AxValues c = Ok f3 /\ f3 = mkvf (vg f2) (amap (oscale kc) (cx f)) (amap (oscale kc) (cy f)) (vmsk f) c)
    by (unfold vf_change_unit; cbn [f2 vuv]; rewrite Kc; eexists; split; reflexivity).
  destruct E3 as (f3 & E3 & Q3). rewrite E1, E2, E3. exists f3. split; [reflexivity|].
  destruct W as ([R0 R1] & [T0 T1] & [M0 M1]). split.
  { rewrite Q3. unfold vf_wf, has_shape. cbn [vg f2 f1 ax ay cx cy vmsk amap d0 d1]. rewrite !map_length. auto. }
  split.
  { intros x y v w m (i & j & N1 & N2 & N3 & N4 & N5). rewrite Q3 in N1, N2, N3, N4, N5. cbn [vg f2 f1 ax ay vmsk amap at_ cx cy] in N1, N2, N3, N4, N5.
    rewrite nth_error_map in N1, N2.
    destruct (nth_error (ax (vg f)) i) as [x0|] eqn:EX; [|discriminate]. destruct (nth_error (ay (vg f)) j) as [y0|] eqn:EY; [|discriminate].
    destruct (C x0 y0 (at_ (cx f) i j) (at_ (cy f) i j) m) as [K1 K2]; [exists i, j; auto|]. subst v w.
    destruct (at_ (cx f) i j), (at_ (cy f) i j); cbn; split; (split; intro Q; [try discriminate; tauto|]); try reflexivity; exfalso;
      solve [destruct K1 as [_ K1]; specialize (K1 Q); discriminate | destruct K2 as [_ K2]; specialize (K2 Q); discriminate]. }
  split. { rewrite Q3. cbn [vg]. split; cbn [f2 f1 vg ax ay]; apply scaled_inc; try assumption; apply S. }
  do 3 (split; [rewrite Q3; reflexivity|]). do 2 (split; [rewrite Q3; cbn [vg f2 f1 ax ay]; now rewrite map_length|]).
  split; [intros i j; now rewrite Q3|]. intros X Y V W.
  rewrite (vf_v_content f2 f3 c Gc D3 E3), (vf_y_content f1 f2 b Gb D2 E2), (vf_x_content f f1 a Ga D1 E1). reflexivity.
Qed.
Lemma vf_same_shown f f' : (forall x y v w, vf_shows f' x y v w false <-> vf_shows f x y v w false) -> ux (vg f') = ux (vg f) -> uy (vg f') = uy (vg f) -> vuv f' = vuv f ->
  forall X Y V W, vf_content f' X Y V W <-> vf_content f X Y V W.
Proof.
  intros H U1 U2 U3 X Y V W. unfold vf_content. rewrite U1, U2, U3.
  split; intros (x & y & v & w & S & P); exists x, y, v, w; (split; [apply H|exact P]); exact S.
Qed.
Lemma svf_first ci s f : s_fields s = [] -> vf_addable f ->
  exists f', sp_add (vf_sops ci) s f = (f', mkset (Some (ux (vg f), uy (vg f), vuv f)) [f'], None) /\
    ux (vg f') = ux (vg f) /\ uy (vg f') = uy (vg f) /\ vuv f' = vuv f /\
    (forall X Y V W, vf_content f' X Y V W <-> vf_content f X Y V W) /\
    tight (length (ax (vg f'))) (length (ay (vg f'))) (vmsk f').
Proof.
  intros E A. unfold sp_add. rewrite E. unfold sp_append. cbn [vf_sops p_border].
  destruct (vf_border_ok f A) as (f' & EB & _ & _ & _ & U1 & U2 & U3 & T & Sh). rewrite EB. exists f'. split; [reflexivity|].
  do 3 (split; [assumption|]). split; [now apply vf_same_shown|exact T].
Qed.
Lemma svf_add ci s f a b c : s_fields s <> [] -> s_units s = Some (a, b, c) -> good_units (a, b, c) -> vf_addable f ->
  compatible (ux (vg f), uy (vg f), vuv f) (a, b, c) ->
  exists f', sp_add (vf_sops ci) s f = (f', mkset (s_units s) (s_fields s ++ [f']), None) /\
    ux (vg f') = a /\ uy (vg f') = b /\ vuv f' = c /\
    (forall X Y V W, vf_content f' X Y V W <-> vf_content f X Y V W) /\
    tight (length (ax (vg f'))) (length (ay (vg f'))) (vmsk f').
Proof.
  intros NE U G (W & C & S & GF & SE) D. unfold sp_add. destruct (s_fields s) as [|f0 r] eqn:EF; [congruence|]. rewrite U.
  destruct (vf_convert_ok ci f a b c G GF W C S D) as (f1 & E1 & W1 & C1 & S1 & U1 & U2 & U3 & L1 & L2 & M & Cn). rewrite E1.
  unfold sp_append. cbn [vf_sops p_border]. destruct (vf_border_ok f1) as (f' & EB & _ & _ & _ & V1 & V2 & V3 & T & Sh).
  { split; [exact W1|]. split; [exact C1|]. split; [exact S1|]. split; [rewrite U1, U2, U3; exact G|]. rewrite L1, L2. apply (shows_enough_eq _ _ (vmsk f)); auto. }
  rewrite EB. rewrite EF, U. exists f'. split; [reflexivity|]. rewrite V1, V2, V3. do 3 (split; [assumption|]). split; [|exact T].
  intros X Y V W'. rewrite (vf_same_shown f1 f' Sh V1 V2 V3). apply Cn.
Qed.
Lemma svf_incompatible ci s f a b c : s_fields s <> [] -> s_units s = Some (a, b, c) -> good_units (a, b, c) ->
  ~ compatible (ux (vg f), uy (vg f), vuv f) (a, b, c) -> exists f', sp_add (vf_sops ci) s f = (f', s, Some ValueErr).
Proof.
  intros NE U (Ga & Gb & Gc) D. unfold sp_add. destruct (s_fields s) as [|f0 r] eqn:EF; [congruence|]. rewrite U. unfold sp_convert. cbn [vf_sops p_change].
  destruct (vf_change_unit_axis f a AxX (or_introl eq_refl) Ga) as [H H'].
  destruct (list_eq_dec Z.eq_dec (dim (ux (vg f))) (dim a)) as [D1|D1]; [|rewrite (H' D1); eauto].
  destruct (H D1) as (f1 & E1 & U3 & U1 & U2 & _). rewrite E1.
  destruct (vf_change_unit_axis f1 b AxY (or_intror eq_refl) Gb) as [K K']. rewrite U2 in K, K'.
  destruct (list_eq_dec Z.eq_dec (dim (uy (vg f))) (dim b)) as [D2|D2]; [|rewrite (K' D2); eauto].
  destruct (K D2) as (f2 & E2 & V3 & V1 & V2 & _). rewrite E2.
  destruct (vf_change_unit_v f2 c Gc) as [_ L]. rewrite L; [eauto|]. intro Q. apply D. cbn. rewrite V3, U3 in Q. auto.
Qed.

(** ** histories: the fields of a set share their units *)
Section History.
  Context {F V : Type} (o : spops F V).
  Hypothesis SETX : forall f u f', p_change o f AxX u = Ok f' -> ux (p_grid o f') = u /\ uy (p_grid o f') = uy (p_grid o f) /\ p_unit o f' = p_unit o f.
  Hypothesis SETY : forall f u f', p_change o f AxY u = Ok f' -> ux (p_grid o f') = ux (p_grid o f) /\ uy (p_grid o f') = u /\ p_unit o f' = p_unit o f.
  Hypothesis SETV : forall f u f', p_change o f AxValues u = Ok f' -> ux (p_grid o f') = ux (p_grid o f) /\ uy (p_grid o f') = uy (p_grid o f) /\ p_unit o f' = u.
  Hypothesis BORD : forall f f', p_border o f = Ok f' -> units_of o f' = units_of o f.
  Lemma convert_units u f f' : sp_convert o u f = (f', None) -> units_of o f' = u.
  Proof using All.
    destruct u as [[a b] c]. unfold sp_convert. destruct (p_change o f AxX a) as [f1|] eqn:E1; [|discriminate].
    destruct (p_change o f1 AxY b) as [f2|] eqn:E2; [|discriminate]. destruct (p_change o f2 AxValues c) as [f3|] eqn:E3; [|discriminate].
    intro H. injection H as <-. apply SETX in E1. apply SETY in E2. apply SETV in E3. destruct E1 as (A1 & A2 & A3), E2 as (B1 & B2 & B3), E3 as (C1 & C2 & C3).
    unfold units_of. rewrite C1, C2, C3, B1, B2, A1. reflexivity.
  Qed.
  Definition agrees (s : sset F) : Prop := forall f, In f (s_fields s) -> s_units s = Some (units_of o f).
  Lemma add_agrees s f f' s' r : agrees s -> sp_add o s f = (f', s', r) -> agrees s'.
  Proof using All.
    intros A. unfold sp_add, sp_append. destruct (s_fields s) as [|f0 l] eqn:EF.
    - destruct (p_border o f) as [g|] eqn:EB; intro H; injection H as <- <- <-; cbn; intros h Hh; [|destruct Hh].
      destruct Hh as [<- |[]]. now rewrite (BORD _ _ EB).
    - destruct (s_units s) as [u|] eqn:EU; [|intro H; injection H as <- <- <-; exact A].
      destruct (sp_convert o u f) as [f1 [e|]] eqn:EC; [intro H; injection H as <- <- <-; exact A|].
      destruct (p_border o f1) as [g|] eqn:EB; intro H; injection H as <- <- <-; [|exact A].
      intros h Hh. cbn [s_fields s_units] in *. change (In h ((f0 :: l) ++ [g])) in Hh. apply in_app_or in Hh. destruct Hh as [Hh|[<- |[]]].
      + rewrite <- EU. apply A. now rewrite EF.
      + rewrite (BORD _ _ EB). now rewrite (convert_units _ _ _ EC).
  Qed.
  Lemma adds_agrees l : forall s, agrees s -> agrees (sp_adds o s l).
  Proof using All.
    induction l as [|f l IH]; intros s A; [exact A|]. cbn [sp_adds]. destruct (sp_add o s f) as [[f' s'] r] eqn:E. apply IH. eapply add_agrees; eauto.
  Qed.
End History.
Lemma grid_chg_x g u g' : grid_change_unit g AxX u = Ok g' -> ux g' = u /\ uy g' = uy g.
Proof. unfold grid_change_unit. destruct (conv (ux g) u); cbn; [|discriminate]. intro H. injection H as <-. auto. Qed.
Lemma grid_chg_y g u g' : grid_change_unit g AxY u = Ok g' -> ux g' = ux g /\ uy g' = u.
Proof. unfold grid_change_unit. destruct (conv (uy g) u); cbn; [|discriminate]. intro H. injection H as <-. auto. Qed.
Lemma grid_crop_units g a b w g' : grid_crop_ind g a b = Ok (w, g') -> ux g' = ux g /\ uy g' = uy g.
Proof.
  unfold grid_crop_ind. destruct (crop_window_ind (ax g) a) as [[x0 x1]|]; [|discriminate]. destruct (crop_window_ind (ay g) b) as [[y0 y1]|]; [|discriminate].
  cbn [bind]. intro H. injection H as <- <-. auto.
Qed.
Lemma sf_crop_units f a b f' : sf_crop_ind f a b = Ok f' -> ux (sg f') = ux (sg f) /\ uy (sg f') = uy (sg f) /\ uv f' = uv f.
Proof.
  unfold sf_crop_ind. destruct (grid_crop_ind (sg f) a b) as [[w g]|] eqn:E; [|discriminate]. cbn [bind]. intro H. injection H as <-.
  apply grid_crop_units in E. destruct w as [[x0 x1] [y0 y1]]. destruct E. cbn. auto.
Qed.
Lemma vf_crop_units f a b f' : vf_crop_ind f a b = Ok f' -> ux (vg f') = ux (vg f) /\ uy (vg f') = uy (vg f) /\ vuv f' = vuv f.
Proof.
  unfold vf_crop_ind. destruct (grid_crop_ind (vg f) a b) as [[w g]|] eqn:E; [|discriminate]. cbn [bind]. intro H. injection H as <-.
  apply grid_crop_units in E. destruct w as [[x0 x1] [y0 y1]]. destruct E. cbn. auto.
Qed.
Lemma ssf_history ci l f : In f (s_fields (sp_adds (sf_sops ci) sp_new l)) ->
  s_units (sp_adds (sf_sops ci) sp_new l) = Some (ux (sg f), uy (sg f), uv f).
Proof.
  revert f. apply (adds_agrees (sf_sops ci)); cbn [sf_sops p_change p_grid p_unit p_border].
  - intros f u f' H. unfold sf_change_unit in H. destruct (grid_change_unit (sg f) AxX u) eqn:E; [|discriminate]. cbn in H. injection H as <-. apply grid_chg_x in E. cbn. tauto.
  - intros f u f' H. unfold sf_change_unit in H. destruct (grid_change_unit (sg f) AxY u) eqn:E; [|discriminate]. cbn in H. injection H as <-. apply grid_chg_y in E. cbn. tauto.
  - intros f u f' H. unfold sf_change_unit in H. destruct (conv (uv f) u) eqn:E; [|discriminate]. cbn in H. injection H as <-. auto.
  - intros f f' H. unfold sf_border, crop_masked_border in H. destruct (any_masked f); cbn in H; [|now injection H as <-].
    unfold soft_crop in H. destruct (first_ok _ _); [|discriminate]. destruct (last_ok _ _); [|discriminate]. destruct (first_ok _ _); [|discriminate]. destruct (last_ok _ _); [|discriminate].
    match type of H with context [sf_crop_ind ?a ?b ?c] => destruct (sf_crop_ind a b c) eqn:E end; [|discriminate]. cbn in H. injection H as <-. apply sf_crop_units in E. unfold units_of. cbn [sf_sops vf_sops p_grid p_unit]. destruct E as (-> & -> & ->). reflexivity.
  - intros f [].
Qed.
Lemma svf_history ci l f : In f (s_fields (sp_adds (vf_sops ci) sp_new l)) ->
  s_units (sp_adds (vf_sops ci) sp_new l) = Some (ux (vg f), uy (vg f), vuv f).
Proof.
  revert f. apply (adds_agrees (vf_sops ci)); cbn [vf_sops p_change p_grid p_unit p_border].
  - intros f u f' H. unfold vf_change_unit in H. destruct (grid_change_unit (vg f) AxX u) eqn:E; [|discriminate]. cbn in H. injection H as <-. apply grid_chg_x in E. cbn. tauto.
  - intros f u f' H. unfold vf_change_unit in H. destruct (grid_change_unit (vg f) AxY u) eqn:E; [|discriminate]. cbn in H. injection H as <-. apply grid_chg_y in E. cbn. tauto.
  - intros f u f' H. unfold vf_change_unit in H. destruct (conv (vuv f) u) eqn:E; [|discriminate]. cbn in H. injection H as <-. auto.
  - intros f f' H. unfold vf_border in H. destruct (any_masked _); [|now injection H as <-].
    destruct (first_ok _ _); [|discriminate]. destruct (last_ok _ _); [|discriminate]. destruct (first_ok _ _); [|discriminate]. destruct (last_ok _ _); [|discriminate].
    apply vf_crop_units in H. unfold units_of. cbn [sf_sops vf_sops p_grid p_unit]. destruct H as (-> & -> & ->). reflexivity.
  - intros f [].
Qed.
