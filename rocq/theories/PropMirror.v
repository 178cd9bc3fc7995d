(** * PropMirror: mirroring of scalar fields, vector fields and series (C123, C124, C125, C126, C127).
    Statements, examples and counterexamples; the proofs are in MirrorProofs*.v, the vocabulary in MirrorSpec, FieldSpec and TemporalSpec. *)
From Coq Require Import Lia.
From Verif Require Import Num Res ListLib SortLib Arr FieldModel ScalarFieldModel VectorFieldModel FieldSpec Concrete GradModel GradSpec TemporalModel TemporalSpec TemporalEx TurbEx
  BlModel MirrorModel MirrorSpec MirrorProofs MirrorProofs6 MirrorProofs7 MirrorProofs8 MirrorProofs9 MirrorProofs11 MirrorEx.
Open Scope num_scope.

(** ** C123: the field and its image *)
Theorem C123_images ci nearest cubic f d p n coef r :
  sf_wf f -> sf_clean f -> grid_sorted (sg f) -> evenly (pos_axis f d) ->
  sf_mirroring ci nearest cubic f d p n coef GNone = Ok r -> (2 <= length (ax (sg r)))%nat -> (2 <= length (ay (sg r)))%nat ->
  exists g k lo hi, borderless f g /\ kept_part (pos_axis f d) d p g k /\
    axis_extends (pos_axis k d) (pos_axis r d) lo hi /\ run_axis r d = run_axis k d /\
    (low_plane (pos_axis f d) p -> hi = 0%nat) /\ (high_plane (pos_axis f d) p -> lo = 0%nat) /\
    sf_wf r /\ sf_clean r /\ grid_sorted (sg r) /\
    ux (sg r) = ux (sg f) /\ uy (sg r) = uy (sg f) /\ uv r = uv f /\
    with_images ci d p coef k r.
Proof. exact (mirror_lemma ci nearest cubic f d p n coef r). Qed.
Print Assumptions C123_images.

Theorem C123_plain ci nearest cubic f d p n coef r :
  sf_wf f -> sf_clean f -> grid_sorted (sg f) -> evenly (pos_axis f d) -> nothing_masked f ->
  sf_mirroring ci nearest cubic f d p n coef GNone = Ok r -> (2 <= length (ax (sg r)))%nat -> (2 <= length (ay (sg r)))%nat ->
  (forall x y v, sf_shows f x y v false -> kept_side (pos_axis f d) p (coord d x y) -> sf_shows r x y v false) /\
  (forall x y v x' y', sf_shows f x y v false -> kept_side (pos_axis f d) p (coord d x y) ->
     (x', y') = image d p x y -> (x', y') <> (x, y) -> In x' (ax (sg r)) -> In y' (ay (sg r)) ->
     sf_shows r x' y' (oscale coef v) false).
Proof. exact (mirror_plain ci nearest cubic f d p n coef r). Qed.
Print Assumptions C123_plain.

(** the plane at 1/2: the column x = 0 is replaced by the image of the column x = 1, with its hole *)
Example C123_example : sf_wf ex_mh /\ sf_clean ex_mh /\ grid_sorted (sg ex_mh) /\ evenly (pos_axis ex_mh DX) /\
  exists r, sf_mirroring no_ci no_interp no_interp ex_mh DX (qq 1 2) None (qz (-1)) GNone = Ok r /\ (2 <= length (ax (sg r)))%nat /\ (2 <= length (ay (sg r)))%nat /\
    ax (sg r) = zs [-1; 0; 1; 2]%Z /\ sf_shows r (qz (-1)) (qz 1) (oz (-7)) false /\ sf_shows r 0 0 None true /\ sf_shows r 0 (qz 1) (oz (-5)) false /\ sf_shows r (qz 2) 0 (oz 4) false.
Proof.
  destruct ex_mh_ok as (H1 & H2 & H3 & H4). repeat (split; [assumption|]).
  destruct (ok_ex (sf_mirroring no_ci no_interp no_interp ex_mh DX (qq 1 2) None (qz (-1)) GNone)
    (fun r => axis_b (ax (sg r)) (zs [-1; 0; 1; 2]%Z) && shows_b r (qz (-1)) (qz 1) (oz (-7)) false && shows_b r 0 0 None true && shows_b r 0 (qz 1) (oz (-5)) false
      && shows_b r (qz 2) 0 (oz 4) false && two_b r)%bool) as (r & E & H); [vmr|].
  apply andb_prop in H. destruct H as [H L]. apply two_b_ok in L. destruct L as [L1 L2]. repeat (apply andb_prop in H; destruct H as [H ?]). exists r. split; [exact E|].
  repeat (split; [assumption || now apply axis_b_ok || now apply shows_b_ok|]). now apply shows_b_ok.
Qed.
Example C123_plain_example : sf_wf ex_m /\ sf_clean ex_m /\ grid_sorted (sg ex_m) /\ evenly (pos_axis ex_m DX) /\ nothing_masked ex_m /\
  exists r, sf_mirroring no_ci no_interp no_interp ex_m DX (qz (-1)) None 1 GNone = Ok r /\ (2 <= length (ax (sg r)))%nat /\ (2 <= length (ay (sg r)))%nat /\
    kept_side (pos_axis ex_m DX) (qz (-1)) (qz 1) /\ (qz (-3), qz 1) = image DX (qz (-1)) (qz 1) (qz 1) /\ In (qz (-3)) (ax (sg r)).
Proof.
  destruct ex_m_ok as (H1 & H2 & H3 & H4). repeat (split; [assumption|]). split; [now apply plain_b|].
  destruct (ok_ex (sf_mirroring no_ci no_interp no_interp ex_m DX (qz (-1)) None 1 GNone) (fun r => two_b r && axis_b (ax (sg r)) (zs [-3; -2; -1; 0; 1; 2]%Z))%bool) as (r & E & H); [vmr|].
  apply andb_prop in H. destruct H as [H Q]. apply two_b_ok in H. destruct H as [L1 L2]. apply axis_b_ok in Q. exists r. repeat (split; [assumption|]).
  split; [left; split; [now apply qltb_lt|now apply qleb_le]|]. split; [unfold image; f_equal; now apply Qc_is_canon|]. rewrite Q. now left.
Qed.

(** ** C124: how many rows are mirrored *)
Theorem C124_partial ci nearest cubic f d p coef r :
  sf_wf f -> sf_clean f -> grid_sorted (sg f) -> nothing_masked f -> evenly (pos_axis f d) ->
  sf_mirroring ci nearest cubic f d p None coef GNone = Ok r -> (2 <= length (ax (sg r)))%nat -> (2 <= length (ay (sg r)))%nat ->
  nths (pos_axis f d) 0%nat < p -> p < last (pos_axis f d) (qz 0) ->
  forall x, In x (pos_axis f d) -> kept_side (pos_axis f d) p x ->
    nths (pos_axis r d) 0%nat <= 2 * p - x /\ 2 * p - x <= last (pos_axis r d) (qz 0).
Proof. exact (mirror_reach_inside ci nearest cubic f d p coef r). Qed.
Print Assumptions C124_partial.

Example C124_example : nothing_masked ex_m /\ nths (pos_axis ex_m DX) 0%nat < qq 1 2 /\ qq 1 2 < last (pos_axis ex_m DX) (qz 0) /\
  exists r, sf_mirroring no_ci no_interp no_interp ex_m DX (qq 1 2) None 1 GNone = Ok r /\ (2 <= length (ax (sg r)))%nat /\ (2 <= length (ay (sg r)))%nat.
Proof.
  destruct ex_m_ok as (H1 & _). split; [now apply plain_b|]. split; [now apply qltb_lt|]. split; [now apply qltb_lt|].
  destruct (ok_ex (sf_mirroring no_ci no_interp no_interp ex_m DX (qq 1 2) None 1 GNone) two_b) as (r & E & H); [vmr|]. exists r. split; [exact E|]. now apply two_b_ok.
Qed.
(** with the plane on the border or outside of the field, the furthest row is never mirrored *)
Theorem C124_border_refuted ci nearest cubic f d p coef r :
  sf_wf f -> sf_clean f -> grid_sorted (sg f) -> nothing_masked f -> evenly (pos_axis f d) ->
  sf_mirroring ci nearest cubic f d p None coef GNone = Ok r -> (2 <= length (ax (sg r)))%nat -> (2 <= length (ay (sg r)))%nat ->
  (p <= nths (pos_axis f d) 0%nat -> 2 * p - last (pos_axis f d) (qz 0) < nths (pos_axis r d) 0%nat) /\
  (last (pos_axis f d) (qz 0) <= p -> last (pos_axis r d) (qz 0) < 2 * p - nths (pos_axis f d) 0%nat).
Proof. exact (mirror_reach_border ci nearest cubic f d p coef r). Qed.
Print Assumptions C124_border_refuted.

Example C124_border_example : nothing_masked ex_m /\ 0 <= nths (pos_axis ex_m DX) 0%nat /\
  exists r, sf_mirroring no_ci no_interp no_interp ex_m DX 0 None 1 GNone = Ok r /\ (2 <= length (ax (sg r)))%nat /\ (2 <= length (ay (sg r)))%nat /\ ax (sg r) = zs [-1; 0; 1; 2]%Z.
Proof.
  destruct ex_m_ok as (H1 & _). split; [now apply plain_b|]. split; [now apply qleb_le|].
  destruct (ok_ex (sf_mirroring no_ci no_interp no_interp ex_m DX 0 None 1 GNone) (fun r => two_b r && axis_b (ax (sg r)) (zs [-1; 0; 1; 2]%Z))%bool) as (r & E & H); [vmr|].
  apply andb_prop in H. destruct H as [H Q]. apply two_b_ok in H. destruct H as [L1 L2]. apply axis_b_ok in Q. exists r. auto.
Qed.
(** the number of rows asked for is not the number of rows added *)
Theorem C124_count_refuted ci nearest cubic f d p coef r m dl :
  sf_wf f -> sf_clean f -> grid_sorted (sg f) -> nothing_masked f -> 0 < dl -> axis_evenly (pos_axis f d) dl ->
  sf_mirroring ci nearest cubic f d p (Some m) coef GNone = Ok r -> (2 <= length (ax (sg r)))%nat -> (2 <= length (ay (sg r)))%nat ->
  (m <= Z.of_nat (length (pos_axis f d)))%Z ->
  (p = nths (pos_axis f d) 0%nat -> nths (pos_axis r d) 0%nat = nths (pos_axis f d) 0%nat - (qz m - 1) * dl) /\
  (p = last (pos_axis f d) (qz 0) -> last (pos_axis r d) (qz 0) = last (pos_axis f d) (qz 0) + (qz m - 1) * dl).
Proof. exact (mirror_reach_count ci nearest cubic f d p coef r m dl). Qed.
Print Assumptions C124_count_refuted.

Example C124_count_example : nothing_masked ex_m /\ axis_evenly (pos_axis ex_m DX) 1 /\ 0 = nths (pos_axis ex_m DX) 0%nat /\
  exists r, sf_mirroring no_ci no_interp no_interp ex_m DX 0 (Some 2%Z) 1 GNone = Ok r /\ (2 <= length (ax (sg r)))%nat /\ (2 <= length (ay (sg r)))%nat /\ ax (sg r) = zs [-1; 0; 1; 2]%Z.
Proof.
  destruct ex_m_ok as (H1 & _). split; [now apply plain_b|].
  split; [intros [|[|i]] Li; [now apply Qc_is_canon|now apply Qc_is_canon|cbn in Li; lia]|]. split; [reflexivity|].
  destruct (ok_ex (sf_mirroring no_ci no_interp no_interp ex_m DX 0 (Some 2%Z) 1 GNone) (fun r => two_b r && axis_b (ax (sg r)) (zs [-1; 0; 1; 2]%Z))%bool) as (r & E & H); [vmr|].
  apply andb_prop in H. destruct H as [H Q]. apply two_b_ok in H. destruct H as [L1 L2]. apply axis_b_ok in Q. exists r. auto.
Qed.

(** ** C125: the gap at the plane *)
Theorem C125_value_partial ci nearest cubic f d p n coef c r :
  sf_wf f -> sf_clean f -> grid_sorted (sg f) -> evenly (pos_axis f d) ->
  sf_mirroring ci nearest cubic f d p n coef (GValue c) = Ok r -> (2 <= length (ax (sg r)))%nat -> (2 <= length (ay (sg r)))%nat ->
  exists r0, sf_mirroring ci nearest cubic f d p n coef GNone = Ok r0 /\ sg r = sg r0 /\
    forall x y v m, sf_shows r0 x y v m -> sf_shows r x y (if m then Some c else v) false.
Proof. exact (mirror_value ci nearest cubic f d p n coef c r). Qed.
Print Assumptions C125_value_partial.

Theorem C125_smooth_partial ci nearest cubic f d p n coef gk r :
  sf_wf f -> sf_clean f -> grid_sorted (sg f) -> evenly (pos_axis f d) -> gk = GNearest \/ gk = GCubic ->
  sf_mirroring ci nearest cubic f d p n coef gk = Ok r -> (2 <= length (ax (sg r)))%nat -> (2 <= length (ay (sg r)))%nat ->
  exists r0, sf_mirroring ci nearest cubic f d p n coef GNone = Ok r0 /\ sg r = sg r0 /\ nothing_masked r /\
    forall x y v, sf_shows r0 x y v false -> sf_shows r x y v false.
Proof. exact (mirror_smooth ci nearest cubic f d p n coef gk r). Qed.
Print Assumptions C125_smooth_partial.

Theorem C125_linear_partial ci nearest cubic f p n coef r :
  sf_wf f -> sf_clean f -> grid_sorted (sg f) -> evenly (ay (sg f)) ->
  sf_mirroring ci nearest cubic f DY p n coef GLinear = Ok r -> (2 <= length (ax (sg r)))%nat -> (2 <= length (ay (sg r)))%nat ->
  exists r0, sf_mirroring ci nearest cubic f DY p n coef GNone = Ok r0 /\ sg r = sg r0 /\
    forall a b, band r0 DY a b ->
      (forall x y v, sf_shows r0 x y v false -> sf_shows r x y v false) /\
      (forall x y va vb, In y (ay (sg r0)) -> a < y -> y < b -> sf_shows r0 x a (Some va) false -> sf_shows r0 x b (Some vb) false ->
         exists v, sf_shows r x y (Some v) false /\ (v - va) * (b - a) = (vb - va) * (y - a)).
Proof. exact (mirror_linear_y ci nearest cubic f p n coef r). Qed.
Print Assumptions C125_linear_partial.

Example C125_example : exists r0 r1 r2 r3, let call := sf_mirroring no_ci no_interp no_interp ex_my DY (qz (-1)) None 1 in
  call GNone = Ok r0 /\ call GLinear = Ok r1 /\ call (GValue (qz 9)) = Ok r2 /\ call GNearest = Ok r3 /\
  (2 <= length (ax (sg r1)))%nat /\ (2 <= length (ay (sg r1)))%nat /\ band r0 DY (qz (-2)) 0 /\ sf_shows r0 0 (qz (-1)) None true /\
  sf_shows r0 0 (qz (-2)) (oz 1) false /\ sf_shows r1 0 (qz (-1)) (oz 1) false /\ sf_shows r2 0 (qz (-1)) (oz 9) false.
Proof.
  destruct (ok_ex (sf_mirroring no_ci no_interp no_interp ex_my DY (qz (-1)) None 1 GNone)
    (fun r => band_b r DY (qz (-2)) 0 && shows_b r 0 (qz (-1)) None true && shows_b r 0 (qz (-2)) (oz 1) false)%bool) as (r0 & E0 & H0); [vmr|].
  destruct (ok_ex (sf_mirroring no_ci no_interp no_interp ex_my DY (qz (-1)) None 1 GLinear) (fun r => two_b r && shows_b r 0 (qz (-1)) (oz 1) false)%bool) as (r1 & E1 & H1); [vmr|].
  destruct (ok_ex (sf_mirroring no_ci no_interp no_interp ex_my DY (qz (-1)) None 1 (GValue (qz 9))) (fun r => shows_b r 0 (qz (-1)) (oz 9) false)) as (r2 & E2 & H2); [vmr|].
  destruct (ok_ex (sf_mirroring no_ci no_interp no_interp ex_my DY (qz (-1)) None 1 GNearest) (fun r => true)) as (r3 & E3 & H3); [vmr|].
  apply andb_prop in H0. destruct H0 as [H0 Q2]. apply andb_prop in H0. destruct H0 as [H0 Q1]. apply andb_prop in H1. destruct H1 as [H1 Q3]. apply two_b_ok in H1. destruct H1 as [L1 L2].
  exists r0, r1, r2, r3. cbv zeta. repeat (split; [assumption || now apply band_b_ok || now apply shows_b_ok|]). now apply shows_b_ok.
Qed.
(** in direction x, interp='linear' removes the row before the gap and does not fill it *)
Theorem C125_linear_refuted ci nearest cubic f p n coef r :
  sf_wf f -> sf_clean f -> grid_sorted (sg f) -> evenly (ax (sg f)) ->
  sf_mirroring ci nearest cubic f DX p n coef GLinear = Ok r -> (2 <= length (ax (sg r)))%nat -> (2 <= length (ay (sg r)))%nat ->
  exists r0, sf_mirroring ci nearest cubic f DX p n coef GNone = Ok r0 /\ sg r = sg r0 /\
    forall a b, band r0 DX a b -> nths (ax (sg r0)) 0%nat < a ->
      forall x y, In x (ax (sg r0)) -> In y (ay (sg r0)) -> a <= x -> x < b -> sf_shows r x y None false.
Proof. exact (mirror_linear_x ci nearest cubic f p n coef r). Qed.
Print Assumptions C125_linear_refuted.

Example C125_linear_example : exists r0 r1, let call := sf_mirroring no_ci no_interp no_interp ex_m DX (qz (-1)) None 1 in
  call GNone = Ok r0 /\ call GLinear = Ok r1 /\ (2 <= length (ax (sg r1)))%nat /\ (2 <= length (ay (sg r1)))%nat /\
  band r0 DX (qz (-2)) 0 /\ nths (ax (sg r0)) 0%nat < qz (-2) /\ sf_shows r0 (qz (-2)) 0 (oz 1) false /\ sf_shows r1 (qz (-2)) 0 None false.
Proof.
  destruct (ok_ex (sf_mirroring no_ci no_interp no_interp ex_m DX (qz (-1)) None 1 GNone)
    (fun r => band_b r DX (qz (-2)) 0 && qltb (nths (ax (sg r)) 0) (qz (-2)) && shows_b r (qz (-2)) 0 (oz 1) false)%bool) as (r0 & E0 & H0); [vmr|].
  destruct (ok_ex (sf_mirroring no_ci no_interp no_interp ex_m DX (qz (-1)) None 1 GLinear) (fun r => two_b r && shows_b r (qz (-2)) 0 None false)%bool) as (r1 & E1 & H1); [vmr|].
  apply andb_prop in H0. destruct H0 as [H0 Q2]. apply andb_prop in H0. destruct H0 as [H0 Q1]. apply andb_prop in H1. destruct H1 as [H1 Q3]. apply two_b_ok in H1. destruct H1 as [L1 L2].
  exists r0, r1. cbv zeta. repeat (split; [assumption || now apply band_b_ok || now apply shows_b_ok || now apply qltb_lt|]). now apply shows_b_ok.
Qed.

(** ** C126: vector fields *)
Theorem C126_components ci nearest cubic f d p n c r :
  grid_ok2 (vg f) -> vf_wf f -> vf_clean f -> evenly (vec_axis f d) ->
  vf_mirroring ci nearest cubic f d p n c GNone GNone = Ok r -> (2 <= length (ax (vg r)))%nat ->
  exists sx sy rx ry, comp_x_sf f = Ok sx /\ comp_y_sf f = Ok sy /\
    sf_mirroring ci nearest cubic sx d p n (fst (vec_coefs d c)) GNone = Ok rx /\
    sf_mirroring ci nearest cubic sy d p n (snd (vec_coefs d c)) GNone = Ok ry /\
    vg r = sg rx /\ vg r = sg ry /\ vuv r = vuv f /\ vf_wf r /\
    forall x y vx vy m, vf_shows r x y vx vy m <-> sf_shows rx x y vx m /\ sf_shows ry x y vy m.
Proof. exact (vmirror_lemma ci nearest cubic f d p n c r). Qed.
Print Assumptions C126_components.

Theorem C126_plain ci nearest cubic f d p n c r :
  grid_ok2 (vg f) -> vf_wf f -> vf_clean f -> evenly (vec_axis f d) -> (forall x y vx vy m, vf_shows f x y vx vy m -> m = false) ->
  vf_mirroring ci nearest cubic f d p n c GNone GNone = Ok r -> (2 <= length (ax (vg r)))%nat ->
  (forall x y vx vy, vf_shows f x y vx vy false -> kept_side (vec_axis f d) p (coord d x y) -> vf_shows r x y vx vy false) /\
  (forall x y vx vy x' y', vf_shows f x y vx vy false -> kept_side (vec_axis f d) p (coord d x y) ->
     (x', y') = image d p x y -> (x', y') <> (x, y) -> In x' (ax (vg r)) -> In y' (ay (vg r)) ->
     vf_shows r x' y' (oscale (fst (vec_coefs d c)) vx) (oscale (snd (vec_coefs d c)) vy) false).
Proof. exact (vmirror_plain ci nearest cubic f d p n c r). Qed.
Print Assumptions C126_plain.

Example C126_example : grid_ok2 (vg ex_mv) /\ vf_wf ex_mv /\ vf_clean ex_mv /\ evenly (vec_axis ex_mv DX) /\ (forall x y vx vy m, vf_shows ex_mv x y vx vy m -> m = false) /\
  exists r, vf_mirroring no_ci no_interp no_interp ex_mv DX (qz (-1)) None (COne 1) GNone GNone = Ok r /\ (2 <= length (ax (vg r)))%nat /\
    at_ (cx r) 0 0 = oz (-3) /\ at_ (cy r) 0 0 = oz 6.
Proof.
  split; [split; [split; incr|split; cbn; lia]|]. split; [repeat split|]. split; [apply vclean_b_ok; reflexivity|]. split; [now apply (evenly_b_ok _ 1%num)|].
  split. { intros x y vx vy m (i & j & _ & _ & _ & _ & <-). destruct i as [|[|[|[|i]]]]; destruct j as [|[|[|j]]]; reflexivity. }
  destruct (ok_ex (vf_mirroring no_ci no_interp no_interp ex_mv DX (qz (-1)) None (COne 1) GNone GNone)
    (fun r => Nat.leb 2 (length (ax (vg r))) && osame (at_ (cx r) 0 0) (oz (-3)) && osame (at_ (cy r) 0 0) (oz 6))%bool) as (r & E & H); [vmr|].
  apply andb_prop in H. destruct H as [H Q2]. apply andb_prop in H. destruct H as [H Q1]. apply Nat.leb_le in H. exists r. repeat (split; [assumption || now apply osame_eq|]). now apply osame_eq.
Qed.

(** ** C127: series *)
Theorem C127_frames_partial {F} (mir : F -> res F) t r :
  length (tft t) = length (tff t) -> tf_mirroring mir t = Ok r ->
  each_frame (fun f g => mir f = Ok g) t r /\ tfu r = tfu t.
Proof. exact (tmirror_frames mir t r). Qed.
Print Assumptions C127_frames_partial.

Theorem C127_refuted : exists (t r : tfield sfield), tf_ok t /\ one_grid sf_ops t /\
  tf_mirroring (fun f => sf_mirroring no_ci no_interp no_interp f DX (qz (-1)) None 1 GNone) t = Ok r /\ ~ one_grid sf_ops r.
Proof.
  destruct (ok_ex (tf_mirroring (fun f => sf_mirroring no_ci no_interp no_interp f DX (qz (-1)) None 1 GNone) ex_mt)
    (fun r => match tff r with f :: _ => Nat.eqb (length (ax (sg f))) 6 | [] => false end)) as (r & E & H); [vmr|].
  destruct ex_mt_ok as [H1 H2]. exists ex_mt, r. split; [exact H1|]. split; [exact H2|]. split; [exact E|]. intro O.
  pose proof (tmirror_axes _ _ _ E) as G. destruct (tff r) as [|f l] eqn:EF; [discriminate|]. specialize (O f). rewrite EF in O. specialize (O (or_introl eq_refl)).
  cbn [o_grid sf_ops] in O. rewrite O, G in H. discriminate.
Qed.
Print Assumptions C127_refuted.
Example C127_example : length (tft ex_mt) = length (tff ex_mt) /\ exists r, tf_mirroring (fun f => sf_mirroring no_ci no_interp no_interp f DX (qz (-1)) None 1 GNone) ex_mt = Ok r /\ length (tff r) = 2%nat.
Proof.
  split; [reflexivity|].
  destruct (ok_ex (tf_mirroring (fun f => sf_mirroring no_ci no_interp no_interp f DX (qz (-1)) None 1 GNone) ex_mt) (fun r => Nat.eqb (length (tff r)) 2)) as (r & E & H); [vmr|].
  exists r. split; [exact E|]. now apply Nat.eqb_eq.
Qed.
