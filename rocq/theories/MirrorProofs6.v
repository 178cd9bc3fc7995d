(** * MirrorProofs6: the mirrored field, the number of rows and the gap *)
From Verif Require Import Num Res ListLib Arr FieldModel FieldSpec FieldProofs FieldProofs2 FieldProofs3 ScalarFieldModel ScalarProofs
  TemporalModel GradModel GradSpec BlModel MirrorModel MirrorSpec MirrorProofs MirrorProofs2 MirrorProofs3 MirrorProofs4 MirrorProofs5.
Open Scope num_scope.

Lemma pos_sorted f d : grid_sorted (sg f) -> increasing (pos_axis f d).
Proof. intros [H1 H2]. now destruct d. Qed.
Lemma sub_in (l l' : list num) x0 : (forall i, (i < length l')%nat -> nth_error l' i = nth_error l (x0 + i)) ->
  forall x, In x l' -> In x l.
Proof.
  intros H x I. apply In_nth_error in I. destruct I as (i & E). pose proof (nth_error_Some_lt _ _ _ E) as L.
  rewrite (H i L) in E. now apply nth_error_In in E.
Qed.
(** everything known about a mirroring without gap filling *)
Lemma mirror_run ci nearest cubic f d p n coef r dl :
  sf_wf f -> sf_clean f -> grid_sorted (sg f) -> (0 < dl)%num -> axis_evenly (pos_axis f d) dl ->
  sf_mirroring ci nearest cubic f d p n coef GNone = Ok r -> (2 <= length (ax (sg r)))%nat -> (2 <= length (ay (sg r)))%nat ->
  exists g k s c, borderless f g /\ is_side (pos_axis f d) p s /\ kept_part (pos_axis f d) d p g k /\
    subgrid f g /\ (2 <= length (pos_axis f d))%nat /\
    (forall c, In c (pos_axis k d) <-> In c (pos_axis g d) /\ kept_side (pos_axis f d) p c) /\
    sf_wf r /\ sf_clean r /\ grid_sorted (sg r) /\
    axis_extends (pos_axis k d) (pos_axis r d) (lo_of s c) (hi_of s c) /\ run_axis r d = run_axis k d /\
    ux (sg r) = ux (sg f) /\ uy (sg r) = uy (sg f) /\ uv r = uv f /\ with_images ci d p coef k r /\
    axis_evenly (pos_axis k d) dl /\ (2 <= length (pos_axis k d))%nat /\
    Z.of_nat c = mirror_count (pos_axis f d) s p (gap_border (pos_axis f d) (pos_axis k d) p s) n.
Proof.
  intros W C S Hd HE H LX LY. unfold sf_mirroring in H.
  destruct (without_border f) as [g|] eqn:EG; cbn [bind] in H; [|discriminate].
  destruct (mirror_side f g d p) as [[[k s] b]|] eqn:EM; cbn [bind fst snd] in H; [|discriminate].
  destruct (mirror_extend k d s _) as [e|] eqn:EE; cbn [bind] in H; [|discriminate].
  destruct (mirror_loop _ _ _ _ _ e) as [r0|] eqn:EL; cbn [bind] in H; [|discriminate].
  assert (r0 = r) as -> by (unfold mirror_gap in H; destruct (any_masked r0); now injection H).
  destruct (without_border_sub f g EG W S C) as (B & SG & Wg & Sg & Cg & U1 & U2 & U3).
  assert (forall x, In x (pos_axis g d) -> In x (pos_axis f d)) as IG.
  { destruct SG as (x0 & y0 & Q1 & Q2 & _). destruct d; [apply (sub_in _ _ x0 Q1)|apply (sub_in _ _ y0 Q2)]. }
  assert (axis_evenly (pos_axis g d) dl) as HG.
  { destruct SG as (x0 & y0 & Q1 & Q2 & _). destruct d; [apply (sub_evenly _ _ x0 dl HE Q1)|apply (sub_evenly _ _ y0 dl HE Q2)]. }
  destruct (mirror_side_part f g d p k s b Wg Sg Cg (pos_sorted f d S) IG EM) as (LA & IS & KP & KI & EB).
  pose proof KP as (Wk & Ck & Sk & V1 & V2 & V3 & _).
  assert (axis_evenly (pos_axis k d) dl) as HK.
  { apply (window_evenly (pos_axis g d) (pos_axis k d) dl (kept_side (pos_axis f d) p)); auto using pos_sorted.
    intros x y z Px Pz L1 L2. apply (side_kept _ p s _ IS) in Px. apply (side_kept _ p s _ IS) in Pz. apply (side_kept _ p s _ IS).
    destruct s; cbn [sgn] in *; qlra. }
  pose proof (mirror_loop_grid _ _ _ _ _ _ _ EL) as GR. rewrite GR in LX, LY.
  destruct (images_lemma ci d p coef k s _ e dl Wk Ck Sk EE LX LY HK) as (r' & c & EL' & Ec & Wr & Cr & Sr & AX & RA & T1 & T2 & T3 & WI).
  { intros c Hc. apply KI in Hc. now apply (side_kept _ p s _ IS). }
  rewrite EL in EL'. injection EL' as <-.
  destruct (mirror_extend_spec k d s _ e Wk Ck Sk EE LX LY) as (_ & _ & _ & _ & _ & _ & _ & LK & _).
  exists g, k, s, c. rewrite EB in Ec. repeat (split; [assumption || congruence|]). exact Ec.
Qed.
(** C123 *)
Lemma mirror_lemma ci nearest cubic f d p n coef r :
  sf_wf f -> sf_clean f -> grid_sorted (sg f) -> evenly (pos_axis f d) ->
  sf_mirroring ci nearest cubic f d p n coef GNone = Ok r -> (2 <= length (ax (sg r)))%nat -> (2 <= length (ay (sg r)))%nat ->
  exists g k lo hi, borderless f g /\ kept_part (pos_axis f d) d p g k /\
    axis_extends (pos_axis k d) (pos_axis r d) lo hi /\ run_axis r d = run_axis k d /\
    (low_plane (pos_axis f d) p -> hi = 0%nat) /\ (high_plane (pos_axis f d) p -> lo = 0%nat) /\
    sf_wf r /\ sf_clean r /\ grid_sorted (sg r) /\
    ux (sg r) = ux (sg f) /\ uy (sg r) = uy (sg f) /\ uv r = uv f /\
    with_images ci d p coef k r.
Proof.
  intros W C S (dl & Hd & HE) H LX LY.
  destruct (mirror_run ci nearest cubic f d p n coef r dl W C S Hd HE H LX LY)
    as (g & k & s & c & P1 & P2 & P3 & P4 & P5 & P6 & P7 & P8 & P9 & P10 & P11 & P12 & P13 & P14 & P15 & _).
  exists g, k, (lo_of s c), (hi_of s c). split; [exact P1|]. split; [exact P3|]. split; [exact P10|]. split; [exact P11|].
  split. { intro Q. destruct s; [reflexivity|]. cbn in P2. unfold low_plane, high_plane in *. qlra. }
  split. { intro Q. destruct s; [|reflexivity]. cbn in P2. unfold low_plane, high_plane in *. qlra. }
  repeat (split; [assumption|]). assumption.
Qed.
(** for a field without masked cell, in plain words *)
Lemma mirror_plain ci nearest cubic f d p n coef r :
  sf_wf f -> sf_clean f -> grid_sorted (sg f) -> evenly (pos_axis f d) -> nothing_masked f ->
  sf_mirroring ci nearest cubic f d p n coef GNone = Ok r -> (2 <= length (ax (sg r)))%nat -> (2 <= length (ay (sg r)))%nat ->
  (forall x y v, sf_shows f x y v false -> kept_side (pos_axis f d) p (coord d x y) -> sf_shows r x y v false) /\
  (forall x y v x' y', sf_shows f x y v false -> kept_side (pos_axis f d) p (coord d x y) ->
     (x', y') = image d p x y -> (x', y') <> (x, y) -> In x' (ax (sg r)) -> In y' (ay (sg r)) ->
     sf_shows r x' y' (oscale coef v) false).
Proof.
  intros W C S (dl & Hd & HE) NM H LX LY.
  destruct (mirror_run ci nearest cubic f d p n coef r dl W C S Hd HE H LX LY)
    as (g & k & s & c & B & P2 & KP & P4 & P5 & P6 & P7 & P8 & P9 & P10 & P11 & P12 & P13 & P14 & (WI1 & WI2) & _).
  assert (g = f) as ->.
  { destruct B as [B|[_ ->]]; [|reflexivity]. unfold crop_masked_border in B.
    destruct (any_masked f) eqn:A; [|discriminate]. exfalso.
    unfold any_masked in A. apply existsb_exists in A. destruct A as (b & I & ->). unfold flatten in I. apply in_map_iff in I.
    destruct I as ([i j] & E & I). apply in_aidx in I. destruct W as [_ [M0 M1]]. rewrite M0, M1 in I. cbn in E.
    rewrite (NM _ _ _ _ (shows_idx f i j I)) in E. discriminate. }
  destruct KP as (Wk & Ck & Sk & V1 & V2 & V3 & KS).
  split.
  - intros x y v Q1 Q2. apply WI1. apply KS. auto.
  - intros x y v x' y' Q1 Q2 EI NE I1 I2.
    assert (sf_shows k x y v false) as SK by (apply KS; auto).
    apply In_nth_error in I1. apply In_nth_error in I2. destruct I1 as (i & E1), I2 as (j & E2).
    assert (sf_shows r x' y' (at_ (values r) i j) (at_ (msk r) i j)) as SR by (exists i, j; auto).
    assert (image d p x' y' = (x, y)) as EJ.
    { unfold image in *. destruct d; injection EI as -> ->; f_equal; qring. }
    destruct (WI2 x' y' _ _ SR) as (u & VA & EV & EM).
    { intros [I1 I2].
      assert (kept_side (pos_axis f d) p (coord d x' y')) as KQ.
      { apply P6. destruct d; cbn [coord pos_axis]; assumption. }
      assert (coord d x' y' = 2 * p - coord d x y) as CE by (unfold image in EI; destruct d; injection EI as -> ->; reflexivity).
      apply (side_kept _ p s _ P2) in KQ. apply (side_kept _ p s _ P2) in Q2. rewrite CE in KQ.
      apply NE. rewrite EI. unfold image. destruct d; cbn [coord] in *; f_equal; destruct s; cbn [sgn] in *; qlra. }
    rewrite EJ in VA. cbn [fst snd] in VA.
    assert (inside k x y) as IK.
    { destruct SK as (a & b & F1 & F2 & _). destruct Sk as [SX SY].
      pose proof (last_le_nth _ a SX (nth_error_Some_lt _ _ _ F1)) as [A1 A2].
      pose proof (last_le_nth _ b SY (nth_error_Some_lt _ _ _ F2)) as [B1 B2].
      rewrite (nth_error_nths _ _ _ F1) in A1, A2. rewrite (nth_error_nths _ _ _ F2) in B1, B2. repeat split; assumption. }
    destruct VA as [[_ VA]|[VA _]]; [|contradiction].
    cbn [fst snd] in VA. rewrite (get_value_node ci k x y v false Sk SK) in VA. injection VA as <-.
    assert (at_ (msk r) i j = false) as MF.
    { rewrite EM, EV. destruct v as [v|]; [reflexivity|]. destruct (Ck _ _ _ _ SK) as [Q _]. specialize (Q eq_refl). discriminate. }
    rewrite EV, MF in SR. exact SR.
Qed.
