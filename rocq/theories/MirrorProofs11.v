(** * MirrorProofs11: mirrored vector fields and series *)
From Verif Require Import Num Res ListLib Arr FieldModel FieldSpec FieldProofs FieldProofs2 FieldProofs3 ScalarFieldModel VectorFieldModel ScalarProofs
  TemporalModel TemporalSpec TemporalProofs2 TemporalProofs14 GradModel GradProofs2 TurbModel TurbProofs2 BlModel MirrorModel MirrorSpec MirrorProofs MirrorProofs2 MirrorProofs3 MirrorProofs4 MirrorProofs5 MirrorProofs6
  MirrorProofs7 MirrorProofs8 MirrorProofs10.
Open Scope num_scope.

Lemma vf_import_len x y vx vy m u w t f : vf_import x y vx vy m u w t = Ok f -> length (ax (vg f)) = length x /\ length (ay (vg f)) = length y.
Proof.
  unfold vf_import. cbv zeta. destruct (Nat.ltb _ 2); cbn [guard]; [discriminate|]. destruct (negb (uneven y) && _)%bool; cbn [guard]; [discriminate|].
  match goal with |- guard ?b _ _ = _ -> _ => destruct b end; cbn [guard]; [discriminate|].
  intro H. injection H as <-. cbn [vg ax ay]. destruct (qltb (last x _) _), (qltb (last y _) _); rewrite ?rev_length; auto.
Qed.
Lemma comp_coefs_signs d c : comp_coefs d c = vec_coefs d c.
Proof. destruct c as [c|]; destruct d; cbn; f_equal; qring. Qed.
Lemma vcells_clean f : vf_clean f -> vcells f.
Proof. intros C i j Li Lj. apply (C (nths (ax (vg f)) i) (nths (ay (vg f)) j) _ _ (at_ (vmsk f) i j)). exists i, j. repeat split; now apply nths_nth_error. Qed.

Lemma import_grid x y v m u w t v' m' t' e e' : sf_import x y v m u w t = Ok e -> sf_import x y v' m' u w t' = Ok e' -> sg e = sg e'.
Proof.
  unfold sf_import. cbv zeta. destruct (Nat.ltb _ 2); cbn [guard]; [discriminate|]. destruct (negb (uneven y) && _)%bool; cbn [guard]; [discriminate|].
  intros H H'. injection H as <-. injection H' as <-. reflexivity.
Qed.
Lemma extend_grid f h a b c dd e e' : sg f = sg h -> sf_extend f a b c dd None true = Ok e -> sf_extend h a b c dd None true = Ok e' -> sg e = sg e'.
Proof.
  unfold sf_extend. intros <-. destruct (grid_extend (sg f) a b c dd) as [g|]; cbn [bind]; [|discriminate]. apply import_grid.
Qed.
Lemma crop_along_grid f h d iv k k' : sg f = sg h -> crop_along f d iv = Ok k -> crop_along h d iv = Ok k' -> sg k = sg k'.
Proof.
  unfold crop_along, sf_crop. intros <-. destruct d.
  all: destruct (grid_crop (sg f) _ _) as [[w gr]|]; cbn [bind]; [|discriminate];
    intros H H'; injection H as <-; injection H' as <-; destruct w as [[? ?] [? ?]]; reflexivity.
Qed.
Lemma pos_axis_sg f h d : sg f = sg h -> pos_axis f d = pos_axis h d.
Proof. unfold pos_axis. now intros ->. Qed.
Lemma mirror_same_grid ci nearest cubic f h d p n a b r r' : sf_wf f -> sf_wf h -> same_mask f h ->
  sf_mirroring ci nearest cubic f d p n a GNone = Ok r -> sf_mirroring ci nearest cubic h d p n b GNone = Ok r' -> sg r = sg r'.
Proof.
  intros W W' SM H H'. unfold sf_mirroring in H, H'. pose proof SM as [G _].
  destruct (without_border f) as [g|] eqn:EG; cbn [bind] in H; [|discriminate].
  destruct (without_border h) as [g'|] eqn:EG'; cbn [bind] in H'; [|discriminate].
  pose proof (wb_same f h g g' W W' SM EG EG') as GG.
  destruct (mirror_side f g d p) as [[[k s] bd]|] eqn:EM; cbn [bind fst snd] in H; [|discriminate].
  destruct (mirror_side h g' d p) as [[[k' s'] bd']|] eqn:EM'; cbn [bind fst snd] in H'; [|discriminate].
  assert (sg k = sg k' /\ s = s' /\ bd = bd') as (KK & <- & <-).
  { unfold mirror_side in EM, EM'. rewrite <- (pos_axis_sg f h d G) in EM'.
    destruct (Nat.ltb _ 2); cbn [guard] in *; [discriminate|].
    destruct (qltb p _); [injection EM as <- <- <-; injection EM' as <- <- <-; auto|].
    destruct (qltb _ p); [injection EM as <- <- <-; injection EM' as <- <- <-; auto|].
    destruct (qltb p _).
    { destruct (crop_along g d _) as [k1|] eqn:C1; cbn [bind] in EM; [|discriminate]. destruct (crop_along g' d _) as [k2|] eqn:C2; cbn [bind] in EM'; [|discriminate].
      injection EM as <- <- <-. injection EM' as <- <- <-. pose proof (crop_along_grid _ _ _ _ _ _ GG C1 C2) as K. rewrite (pos_axis_sg _ _ d K). auto. }
    destruct (qltb _ p); [|discriminate].
    destruct (crop_along g d _) as [k1|] eqn:C1; cbn [bind] in EM; [|discriminate]. destruct (crop_along g' d _) as [k2|] eqn:C2; cbn [bind] in EM'; [|discriminate].
    injection EM as <- <- <-. injection EM' as <- <- <-. pose proof (crop_along_grid _ _ _ _ _ _ GG C1 C2) as K. rewrite (pos_axis_sg _ _ d K). auto. }
  rewrite <- (pos_axis_sg f h d G) in H'.
  destruct (mirror_extend k d s _) as [e|] eqn:EE; cbn [bind] in H; [|discriminate].
  destruct (mirror_extend k' d s _) as [e'|] eqn:EE'; cbn [bind] in H'; [|discriminate].
  assert (sg e = sg e') as GE.
  { unfold mirror_extend in EE, EE'. destruct (Z.ltb _ 0); cbn [guard] in *; [discriminate|].
    destruct d, s; eapply extend_grid; eassumption. }
  destruct (mirror_loop _ _ _ _ _ e) as [r0|] eqn:EL; cbn [bind] in H; [|discriminate].
  destruct (mirror_loop _ _ _ _ _ e') as [r0'|] eqn:EL'; cbn [bind] in H'; [|discriminate].
  rewrite gap_none in H, H'. injection H as <-. injection H' as <-.
  now rewrite (mirror_loop_grid _ _ _ _ _ _ _ EL), (mirror_loop_grid _ _ _ _ _ _ _ EL').
Qed.

(** C126 *)
Lemma vmirror_lemma ci nearest cubic f d p n c r :
  grid_ok2 (vg f) -> vf_wf f -> vf_clean f -> evenly (vec_axis f d) ->
  vf_mirroring ci nearest cubic f d p n c GNone GNone = Ok r -> (2 <= length (ax (vg r)))%nat ->
  exists sx sy rx ry, comp_x_sf f = Ok sx /\ comp_y_sf f = Ok sy /\
    sf_mirroring ci nearest cubic sx d p n (fst (vec_coefs d c)) GNone = Ok rx /\
    sf_mirroring ci nearest cubic sy d p n (snd (vec_coefs d c)) GNone = Ok ry /\
    vg r = sg rx /\ vg r = sg ry /\ vuv r = vuv f /\ vf_wf r /\
    forall x y vx vy m, vf_shows r x y vx vy m <-> sf_shows rx x y vx m /\ sf_shows ry x y vy m.
Proof.
  intros G W C (dl & Hd & HE) H LX. unfold vf_mirroring in H.
  destruct (comp_as_sf_lemma cx f (or_introl eq_refl) G W (vcells_clean f C)) as (sx & Ex & Gx & Ux & Wx & Cx & Mx).
  destruct (comp_as_sf_lemma cy f (or_intror eq_refl) G W (vcells_clean f C)) as (sy & Ey & Gy & Uy & Wy & Cy & My).
  change (comp_as_sf cx f) with (comp_x_sf f) in Ex. change (comp_as_sf cy f) with (comp_y_sf f) in Ey.
  rewrite Ex, Ey in H. cbn [bind] in H. rewrite comp_coefs_signs in H.
  destruct (sf_mirroring _ _ _ sx _ _ _ _ _) as [rx|] eqn:Rx; cbn [bind] in H; [|discriminate].
  destruct (sf_mirroring _ _ _ sy _ _ _ _ _) as [ry|] eqn:Ry; cbn [bind] in H; [|discriminate].
  assert (same_mask sx sy) as SM. { split; [congruence|]. intros i j Li Lj. rewrite Gx in Li, Lj. destruct (Mx i j Li Lj) as [-> _]. now destruct (My i j Li Lj) as [-> _]. }
  pose proof (mirror_same_grid _ _ _ _ _ _ _ _ _ _ _ _ Wx Wy SM Rx Ry) as GG.
  destruct (vf_import_len _ _ _ _ _ _ _ _ _ H) as [Q1 Q2].
  assert (2 <= length (ay (sg rx)))%nat as LY. { unfold vf_import in H. destruct (Nat.ltb_spec (length (ay (sg rx))) 2); cbn [guard] in H; [discriminate|assumption]. }
  rewrite Q1 in LX.
  assert (pos_axis sx d = vec_axis f d) as PX by (unfold pos_axis, vec_axis; now rewrite Gx).
  assert (pos_axis sy d = vec_axis f d) as PY by (unfold pos_axis, vec_axis; now rewrite Gy).
  destruct G as ((G1 & G2) & _ & _).
  assert (grid_sorted (sg sx)) as Sx by (rewrite Gx; split; assumption). assert (grid_sorted (sg sy)) as Sy by (rewrite Gy; split; assumption).
  destruct (mirror_same_mask _ _ _ sx sy d p n _ _ rx ry dl Wx Cx Sx Wy Cy SM Hd ltac:(now rewrite PX) Rx Ry LX LY ltac:(now rewrite <- GG) ltac:(now rewrite <- GG))
    as (AX & AY & (_ & _ & CM)).
  destruct (mirror_run _ _ _ sx d p n _ rx dl Wx Cx Sx Hd ltac:(now rewrite PX) Rx LX LY)
    as (_ & _ & _ & _ & _ & _ & _ & _ & _ & _ & P7 & P8 & P9 & _ & _ & P12 & P13 & P14 & _).
  destruct (mirror_run _ _ _ sy d p n _ ry dl Wy Cy Sy Hd ltac:(now rewrite PY) Ry ltac:(now rewrite <- GG) ltac:(now rewrite <- GG))
    as (_ & _ & _ & _ & _ & _ & _ & _ & _ & _ & P7' & P8' & P9' & _ & _ & P12' & P13' & P14' & _).
  pose proof P7 as [[VX0 VX1] MX]. pose proof P7' as [[VY0 VY1] MY]. rewrite <- GG in VY0, VY1, MY.
  destruct (vf_import_plain (ax (sg rx)) (ay (sg rx)) (values rx) (values ry) (amap2 orb (msk rx) (msk ry)) (ux (sg rx)) (uy (sg ry)) (uv rx))
    as (r1 & E1 & (O1 & O2 & O3) & V); try assumption; try apply P9; try (split; assumption).
  rewrite E1 in H. injection H as ->.
  assert (vg r = sg rx) as GR. { rewrite O1. rewrite <- GG. now destruct (sg rx). }
  exists sx, sy, rx, ry. repeat (split; [assumption || congruence|]).
  intros x y vx vy m. split.
  - intros (i & j & F1 & F2 & F3 & F4 & F5). rewrite GR in F1, F2. destruct (V i j) as (V1 & V2 & V3).
    assert (sf_shows rx x y (at_ (values rx) i j) (at_ (msk rx) i j)) as S1 by (exists i, j; auto).
    assert (sf_shows ry x y (at_ (values ry) i j) (at_ (msk ry) i j)) as S2 by (exists i, j; rewrite <- AX, <- AY; auto).
    pose proof (CM _ _ _ _ _ _ S1 S2) as EM. pose proof (P8 _ _ _ _ S1) as T1. pose proof (P8' _ _ _ _ S2) as T2.
    rewrite F5 in *. rewrite F3 in V2. rewrite F4 in V3. cbn [amap2 at_] in V1.
    assert (m = at_ (msk rx) i j /\ vx = at_ (values rx) i j /\ vy = at_ (values ry) i j) as (-> & -> & ->).
    { cbn [amap2 at_] in V2, V3. rewrite EM in *.
      destruct (at_ (msk ry) i j); cbn [orb] in *.
      - split; [exact V1|]. rewrite (proj2 T1 eq_refl), (proj2 T2 eq_refl). auto.
      - destruct (at_ (values rx) i j); [|exfalso; assert (false = true) by tauto; discriminate].
        destruct (at_ (values ry) i j); [|exfalso; assert (false = true) by tauto; discriminate]. auto. }
    split; [exact S1|]. rewrite EM. exact S2.
  - intros [S1 S2]. pose proof (P8 _ _ _ _ S1) as T1. pose proof (P8' _ _ _ _ S2) as T2.
    destruct S1 as (i & j & F1 & F2 & F3 & F4). destruct S2 as (i' & j' & H1 & H2 & H3 & H4). rewrite <- AX in H1. rewrite <- AY in H2.
    assert (i' = i) as ->. { apply (increasing_inj (ax (sg rx))); try apply P9; try (eapply nth_error_Some_lt; eassumption).
      rewrite (nth_error_nths _ _ _ F1), (nth_error_nths _ _ _ H1). reflexivity. }
    assert (j' = j) as ->. { apply (increasing_inj (ay (sg rx))); try apply P9; try (eapply nth_error_Some_lt; eassumption).
      rewrite (nth_error_nths _ _ _ F2), (nth_error_nths _ _ _ H2). reflexivity. }
    exists i, j. rewrite GR. destruct (V i j) as (V1 & V2 & V3). cbn [amap2 at_] in V1, V2, V3. rewrite F3, F4, H3, H4 in *. rewrite orb_diag in *.
    repeat (split; [assumption|]). rewrite V1, V2, V3. destruct m; cbn [orb].
    + rewrite (proj2 T1 eq_refl), (proj2 T2 eq_refl). auto.
    + destruct vx; [|exfalso; assert (false = true) by tauto; discriminate].
      destruct vy; [|exfalso; assert (false = true) by tauto; discriminate]. auto.
Qed.
(** a vector field without masked cell: every vector kept stays, and its image has the sign of the normal component changed *)
Lemma vmirror_plain ci nearest cubic f d p n c r :
  grid_ok2 (vg f) -> vf_wf f -> vf_clean f -> evenly (vec_axis f d) -> (forall x y vx vy m, vf_shows f x y vx vy m -> m = false) ->
  vf_mirroring ci nearest cubic f d p n c GNone GNone = Ok r -> (2 <= length (ax (vg r)))%nat ->
  (forall x y vx vy, vf_shows f x y vx vy false -> kept_side (vec_axis f d) p (coord d x y) -> vf_shows r x y vx vy false) /\
  (forall x y vx vy x' y', vf_shows f x y vx vy false -> kept_side (vec_axis f d) p (coord d x y) ->
     (x', y') = image d p x y -> (x', y') <> (x, y) -> In x' (ax (vg r)) -> In y' (ay (vg r)) ->
     vf_shows r x' y' (oscale (fst (vec_coefs d c)) vx) (oscale (snd (vec_coefs d c)) vy) false).
Proof.
  intros G W C E NM H LX.
  destruct (vmirror_lemma ci nearest cubic f d p n c r G W C E H LX) as (sx & sy & rx & ry & Ex & Ey & Rx & Ry & GX & GY & _ & Wr & V).
  destruct (comp_as_sf_lemma cx f (or_introl eq_refl) G W (vcells_clean f C)) as (sx' & Ex' & Gx & Ux & Wx & Cx & Mx).
  destruct (comp_as_sf_lemma cy f (or_intror eq_refl) G W (vcells_clean f C)) as (sy' & Ey' & Gy & Uy & Wy & Cy & My).
  change (comp_as_sf cx f) with (comp_x_sf f) in Ex'. change (comp_as_sf cy f) with (comp_y_sf f) in Ey'.
  assert (sx' = sx) as -> by congruence. assert (sy' = sy) as -> by congruence.
  assert (LY : (2 <= length (ay (vg r)))%nat).
  { unfold vf_mirroring in H. rewrite Ex, Ey in H. cbn [bind] in H. rewrite comp_coefs_signs, Rx, Ry in H. cbn [bind] in H.
    destruct (vf_import_len _ _ _ _ _ _ _ _ _ H) as [_ Q]. rewrite Q.
    unfold vf_import in H. destruct (Nat.ltb_spec (length (ay (sg rx))) 2); cbn [guard] in H; [discriminate|assumption]. }
  assert (forall x y vx vy, vf_shows f x y vx vy false -> sf_shows sx x y vx false /\ sf_shows sy x y vy false) as SH.
  { intros x y vx vy (i & j & F1 & F2 & F3 & F4 & F5). pose proof (nth_error_Some_lt _ _ _ F1) as Li. pose proof (nth_error_Some_lt _ _ _ F2) as Lj.
    destruct (Mx i j Li Lj) as [A1 A2]. destruct (My i j Li Lj) as [B1 B2]. rewrite F5 in *. rewrite F3 in A2. rewrite F4 in B2.
    split; exists i, j; [rewrite Gx|rewrite Gy]; auto. }
  assert (nothing_masked_both : GradSpec.nothing_masked sx /\ GradSpec.nothing_masked sy).
  { split; intros x y v m (i & j & F1 & F2 & F3 & F4); [rewrite Gx in F1, F2|rewrite Gy in F1, F2];
      pose proof (nth_error_Some_lt _ _ _ F1) as Li; pose proof (nth_error_Some_lt _ _ _ F2) as Lj;
      [destruct (Mx i j Li Lj) as [A1 _]|destruct (My i j Li Lj) as [A1 _]]; rewrite <- F4, A1;
      apply (NM x y (at_ (cx f) i j) (at_ (cy f) i j)); exists i, j; auto. }
  destruct nothing_masked_both as [Nx Ny].
  assert (pos_axis sx d = vec_axis f d) as PX by (unfold pos_axis, vec_axis; now rewrite Gx).
  assert (pos_axis sy d = vec_axis f d) as PY by (unfold pos_axis, vec_axis; now rewrite Gy).
  destruct G as (G1 & _ & _).
  destruct (mirror_plain ci nearest cubic sx d p n _ rx Wx Cx ltac:(now rewrite Gx) ltac:(now rewrite PX) Nx Rx ltac:(now rewrite <- GX) ltac:(now rewrite <- GX)) as [X1 X2].
  destruct (mirror_plain ci nearest cubic sy d p n _ ry Wy Cy ltac:(now rewrite Gy) ltac:(now rewrite PY) Ny Ry ltac:(now rewrite <- GY) ltac:(now rewrite <- GY)) as [Y1 Y2].
  rewrite PX in X1, X2. rewrite PY in Y1, Y2. split.
  - intros x y vx vy Q K. destruct (SH _ _ _ _ Q). apply V. auto.
  - intros x y vx vy x' y' Q K EI NE I J. destruct (SH _ _ _ _ Q). apply V. split; [eapply X2|eapply Y2]; eauto; rewrite <- ?GX, <- ?GY; auto.
Qed.

(** ** Series.  C127: the frames are mirrored one by one, with their times *)
Lemma tmirror_frames {F} (mir : F -> res F) t r : length (tft t) = length (tff t) -> tf_mirroring mir t = Ok r ->
  each_frame (fun f g => mir f = Ok g) t r /\ tfu r = tfu t.
Proof.
  intros L H. unfold tf_mirroring in H. destruct (mapM mir (tff t)) as [fs|] eqn:E; cbn [bind] in H; [|discriminate].
  destruct (tff t) as [|f0 l0] eqn:ET; cbn [guard] in H; [discriminate|]. injection H as <-. split; [|reflexivity].
  rewrite <- ET in *. apply mapM_forall2 in E. unfold each_frame, frames. cbn [tft tff]. clear ET f0 l0. revert E L. generalize (tft t). generalize (tff t). clear.
  intros l ts H. revert ts. induction H as [|f g l l' Hf H IH]; intros [|s ts] L; cbn in *; try constructor; try discriminate.
  - split; auto.
  - apply IH. lia.
Qed.
(** but the axes of the series are not updated *)
Lemma tmirror_axes {F} (mir : F -> res F) t r : tf_mirroring mir t = Ok r -> tfg r = tfg t.
Proof.
  unfold tf_mirroring. destruct (mapM mir (tff t)) as [fs|]; cbn [bind]; [|discriminate]. destruct (tff t); cbn [guard]; [discriminate|].
  intro H. now injection H as <-.
Qed.
