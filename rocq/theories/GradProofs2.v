From Verif Require Import Num Res ListLib SortLib Arr FieldModel ScalarFieldModel VectorFieldModel FieldSpec FieldProofs FieldProofs2 ScalarProofs GradModel GradSpec GradProofs.

(** ** fill of a scalar field *)
Lemma any_masked_true f : any_masked f = true <-> exists i j, i < d0 (msk f) /\ j < d1 (msk f) /\ at_ (msk f) i j = true.
Proof.
  unfold any_masked, flatten. rewrite existsb_exists. split.
  - intros (b & Hin & Hb). apply in_map_iff in Hin. destruct Hin as ([i j] & E & Hin). apply in_aidx in Hin. subst b. now exists i, j.
  - intros (i & j & Hi & Hj & E). exists true. split; [|reflexivity]. apply in_map_iff. exists (i, j). split; [exact E|]. now apply in_aidx.
Qed.
Lemma any_masked_false f : any_masked f = false <-> forall i j, i < d0 (msk f) -> j < d1 (msk f) -> at_ (msk f) i j = false.
Proof.
  split.
  - intros E i j Hi Hj. destruct (at_ (msk f) i j) eqn:M; [|reflexivity].
    rewrite <- E. symmetry. apply any_masked_true. eauto.
  - intro H. destruct (any_masked f) eqn:E; [|reflexivity]. apply any_masked_true in E. destruct E as (i & j & Hi & Hj & M).
    rewrite H in M by assumption. discriminate.
Qed.
Lemma sf_import_none x y v u w t : increasing x -> increasing y -> 2 <= length x -> 2 <= length y ->
  d0 v = length x -> d1 v = length y ->
  sf_import x y v None u w t = Ok (mksf (mkgrid x y u w) v (amap2 orb (afull (d0 v) (d1 v) false) (amap isnan v)) t).
Proof. intros. now rewrite <- sf_import_plain. Qed.
Lemma nothing_masked_idx f : sf_wf f -> (nothing_masked f <-> any_masked f = false).
Proof.
  intros [_ [M0 M1]]. rewrite any_masked_false, M0, M1. split.
  - intros H i j Hi Hj. exact (H _ _ _ _ (shows_at f i j Hi Hj)).
  - intros H x y v m (i & j & Ei & Ej & _ & <-). apply H; [now apply nth_error_Some_lt in Ei|now apply nth_error_Some_lt in Ej].
Qed.

Lemma sf_fill_run nearest linear cubic f kind value : sf_wf f -> sf_clean f -> grid_sorted (sg f) ->
  2 <= length (ax (sg f)) -> 2 <= length (ay (sg f)) -> (kind <> FOther \/ any_masked f = false) ->
  exists f', sf_fill nearest linear cubic f kind value = Ok f' /\ on_grid (sg f) f' (uv f) /\
    forall i j, i < length (ax (sg f)) -> j < length (ay (sg f)) ->
      let new := if at_ (msk f) i j then replacement (nearest f i j) (linear f i j) (cubic f i j) kind value else at_ (values f) i j in
      at_ (values f') i j = new /\ at_ (msk f') i j = isnan new.
Proof.
  intros W C [Ix Iy] Lx Ly K. pose proof (values_shape f W) as [V0 V1]. rewrite sf_clean_idx in C.
  assert (forall v, has_shape v (length (ax (sg f))) (length (ay (sg f))) ->
    (forall i j, i < length (ax (sg f)) -> j < length (ay (sg f)) ->
      at_ v i j = if at_ (msk f) i j then replacement (nearest f i j) (linear f i j) (cubic f i j) kind value else at_ (values f) i j) ->
    exists f', sf_import (ax (sg f)) (ay (sg f)) v None (ux (sg f)) (uy (sg f)) (uv f) = Ok f' /\ on_grid (sg f) f' (uv f) /\
    forall i j, i < length (ax (sg f)) -> j < length (ay (sg f)) ->
      let new := if at_ (msk f) i j then replacement (nearest f i j) (linear f i j) (cubic f i j) kind value else at_ (values f) i j in
      at_ (values f') i j = new /\ at_ (msk f') i j = isnan new) as Fin.
  { intros v [D0 D1] Hv. rewrite sf_import_none by assumption. eexists. split; [reflexivity|]. split.
    { repeat split; try assumption. now destruct (sg f). }
    intros i j Hi Hj. cbn [values msk raw amap2 amap at_ d0 d1 afull orb]. rewrite (Hv i j Hi Hj). cbv zeta.
    destruct (if at_ (msk f) i j then _ else _); split; reflexivity. }
  unfold sf_fill. destruct (any_masked f) eqn:A; cbn [negb].
  - destruct K as [K|K]; [|discriminate].
    assert (forall (w : interps) i j, i < length (ax (sg f)) -> j < length (ay (sg f)) ->
      match (if at_ (msk f) i j then w f i j else at_ (values f) i j) with None => nearest f i j | Some q => Some q end =
      if at_ (msk f) i j then or_else (w f i j) (nearest f i j) else at_ (values f) i j) as Sm.
    { intros w i j Hi Hj. destruct (at_ (msk f) i j) eqn:M; [now destruct (w f i j)|].
      destruct (at_ (values f) i j) eqn:V; [reflexivity|]. apply (C i j Hi Hj) in V. congruence. }
    destruct kind; try congruence; cbn [bind]; apply Fin; try (split; assumption); intros i j Hi Hj; cbn [at_ replacement];
      try reflexivity; now apply Sm.
  - cbn [bind]. apply Fin; [split; assumption|]. intros i j Hi Hj. destruct W as [_ [M0 M1]].
    rewrite (proj1 (any_masked_false f) A) by lia. reflexivity.
Qed.
Lemma sf_fill_unknown nearest linear cubic f value : any_masked f = true -> sf_fill nearest linear cubic f FOther value = Err ValueErr.
Proof. intro A. unfold sf_fill. now rewrite A. Qed.

(** C100 *)
Lemma sf_fill_lemma nearest linear cubic f kind value : sf_wf f -> sf_clean f -> grid_sorted (sg f) ->
  2 <= length (ax (sg f)) -> 2 <= length (ay (sg f)) -> kind <> FOther ->
  exists f', sf_fill nearest linear cubic f kind value = Ok f' /\ on_grid (sg f) f' (uv f) /\ sf_clean f' /\
    forall i j, i < length (ax (sg f)) -> j < length (ay (sg f)) ->
      (at_ (msk f) i j = false -> at_ (values f') i j = at_ (values f) i j /\ at_ (msk f') i j = false) /\
      (at_ (msk f) i j = true ->
         at_ (values f') i j = replacement (nearest f i j) (linear f i j) (cubic f i j) kind value).
Proof.
  intros W C G Lx Ly K. destruct (sf_fill_run nearest linear cubic f kind value W C G Lx Ly (or_introl K)) as (f' & E & O & P).
  exists f'. split; [exact E|]. split; [exact O|]. rewrite sf_clean_idx in C. destruct O as (Sg & _). split.
  - apply sf_clean_idx. rewrite Sg. intros i j Hi Hj. destruct (P i j Hi Hj) as [-> ->]. now rewrite isnan_true.
  - intros i j Hi Hj. destruct (P i j Hi Hj) as [-> ->]. split; intro M; rewrite M; [|reflexivity].
    split; [reflexivity|]. destruct (at_ (values f) i j) eqn:V; [reflexivity|]. apply (C i j Hi Hj) in V. congruence.
Qed.
Lemma sf_fill_total_lemma nearest linear cubic f kind value : sf_wf f -> sf_clean f -> grid_sorted (sg f) ->
  2 <= length (ax (sg f)) -> 2 <= length (ay (sg f)) -> kind <> FOther ->
  (forall i j, nearest f i j <> None) ->
  exists f', sf_fill nearest linear cubic f kind value = Ok f' /\ nothing_masked f'.
Proof.
  intros W C G Lx Ly K N. destruct (sf_fill_run nearest linear cubic f kind value W C G Lx Ly (or_introl K)) as (f' & E & (Sg & _ & W') & P).
  exists f'. split; [exact E|]. apply nothing_masked_idx; [exact W'|]. apply any_masked_false. destruct W' as [_ [M0 M1]].
  rewrite M0, M1, Sg. intros i j Hi Hj. destruct (P i j Hi Hj) as [_ ->]. rewrite sf_clean_idx in C.
  destruct (at_ (msk f) i j) eqn:M.
  - specialize (N i j). destruct kind; cbn; try congruence; unfold or_else; [| destruct (linear f i j) | destruct (cubic f i j)];
      try reflexivity; now destruct (nearest f i j).
  - destruct (at_ (values f) i j) eqn:V; [reflexivity|]. apply (C i j Hi Hj) in V. congruence.
Qed.
Lemma sf_fill_none_lemma nearest linear cubic f kind value : sf_wf f -> sf_clean f -> grid_sorted (sg f) ->
  2 <= length (ax (sg f)) -> 2 <= length (ay (sg f)) -> nothing_masked f ->
  exists f', sf_fill nearest linear cubic f kind value = Ok f' /\ sf_same f' f.
Proof.
  intros W C G Lx Ly N. pose proof (proj1 (nothing_masked_idx f W) N) as A.
  destruct (sf_fill_run nearest linear cubic f kind value W C G Lx Ly (or_intror A)) as (f' & E & O & P).
  exists f'. split; [exact E|]. pose proof O as (Sg & U & W'). pose proof (values_shape _ W') as [V0' V1'].
  pose proof (values_shape _ W) as [V0 V1]. destruct W as [_ [M0 M1]], W' as [_ [M0' M1']]. rewrite sf_clean_idx in C.
  pose proof (proj1 (any_masked_false f) A) as Hm. rewrite M0, M1 in Hm.
  unfold sf_same. rewrite Sg, U. repeat split; try congruence.
  - rewrite V0', V1', Sg. intros i j Hi Hj. destruct (P i j Hi Hj) as [-> _]. now rewrite Hm.
  - rewrite M0', M1', Sg. intros i j Hi Hj. destruct (P i j Hi Hj) as [_ ->]. rewrite (Hm i j Hi Hj).
    destruct (at_ (values f) i j) eqn:V; [reflexivity|]. apply (C i j Hi Hj) in V. rewrite Hm in V by assumption. discriminate.
Qed.
Lemma sf_fill_unknown_lemma nearest linear cubic f value : sf_wf f -> ~ nothing_masked f ->
  sf_fill nearest linear cubic f FOther value = Err ValueErr.
Proof.
  intros W N. apply sf_fill_unknown. destruct (any_masked f) eqn:A; [reflexivity|]. exfalso. apply N. now apply nothing_masked_idx.
Qed.
(** with an interpolator that returns a value of the field, filling creates no value *)
Lemma sf_fill_values_lemma nearest linear cubic f : sf_wf f -> sf_clean f -> grid_sorted (sg f) ->
  2 <= length (ax (sg f)) -> 2 <= length (ay (sg f)) ->
  (forall i j, exists x y v, sf_shows f x y (Some v) false /\ nearest f i j = Some v) ->
  exists f', sf_fill nearest linear cubic f FNearest 0%num = Ok f' /\ nothing_masked f' /\
    forall x y v m, sf_shows f' x y v m -> exists x' y', sf_shows f x' y' v false.
Proof.
  intros W C G Lx Ly N. destruct (sf_fill_run nearest linear cubic f FNearest 0%num W C G Lx Ly) as (f' & E & (Sg & _ & W') & P).
  { left. discriminate. }
  destruct (sf_fill_total_lemma nearest linear cubic f FNearest 0%num W C G Lx Ly) as (f'' & E' & Nm).
  { discriminate. } { intros i j. destruct (N i j) as (x & y & v & _ & ->). discriminate. }
  assert (f'' = f') by congruence. subst f''.
  exists f'. split; [exact E|]. split; [exact Nm|]. intros x y v m (i & j & Ei & Ej & Ev & _). rewrite Sg in Ei, Ej.
  pose proof (nth_error_Some_lt _ _ _ Ei) as Hi. pose proof (nth_error_Some_lt _ _ _ Ej) as Hj.
  destruct (P i j Hi Hj) as [Q _]. rewrite Ev in Q. destruct (at_ (msk f) i j) eqn:M.
  - cbn in Q. destruct (N i j) as (x' & y' & v' & Hs & Hn). exists x', y'. now rewrite Q, Hn.
  - exists x, y. exists i, j. rewrite <- Q in *. repeat split; auto.
Qed.

(** ** fill of a vector field *)
Lemma vf_import_plain x y vx vy m u w t : increasing x -> increasing y -> 2 <= length x -> 2 <= length y ->
  has_shape vx (length x) (length y) -> has_shape vy (length x) (length y) -> has_shape m (length x) (length y) ->
  exists f, vf_import x y vx vy m u w t = Ok f /\ on_vgrid (mkgrid x y u w) t f /\
    forall i j, let k := (at_ m i j || isnan (at_ vx i j) || isnan (at_ vy i j))%bool in
      at_ (vmsk f) i j = k /\ at_ (cx f) i j = (if k then None else at_ vx i j) /\ at_ (cy f) i j = (if k then None else at_ vy i j).
Proof.
  intros Hx Hy Lx Ly [X0 X1] [Y0 Y1] [M0 M1]. unfold vf_import.
  rewrite (ltb2 _ Ly), (ltb2 _ Lx). rewrite andb_false_r. cbn [guard].
  assert ((Nat.eqb (length x) (d1 vx) && Nat.eqb (length y) (d0 vx) && negb (Nat.eqb (length x) (length y)))%bool = false) as ->.
  { rewrite X0, X1. destruct (Nat.eqb_spec (length x) (length y)); [now rewrite andb_false_r|reflexivity]. }
  rewrite !not_rev; auto; try (intros ->; simpl in *; lia).
  assert (shape_is vx (mkgrid x y u w) = true) as -> by (apply shape_is_iff; split; assumption).
  assert (shape_is vy (mkgrid x y u w) = true) as -> by (apply shape_is_iff; split; assumption).
  assert (shape_is (amap2 orb (amap2 orb m (amap isnan vx)) (amap isnan vy)) (mkgrid x y u w) = true) as -> by (apply shape_is_iff; split; assumption).
  cbn [andb negb guard]. eexists. split; [reflexivity|]. split.
  - repeat split; assumption.
  - intros i j. cbv zeta. repeat split.
Qed.
Lemma comp_x_run f : vf_wf f -> vf_clean f -> grid_sorted (vg f) -> 2 <= length (ax (vg f)) -> 2 <= length (ay (vg f)) ->
  exists s, comp_x_sf f = Ok s /\ on_grid (vg f) s (vuv f) /\ sf_clean s /\
    forall i j, i < length (ax (vg f)) -> j < length (ay (vg f)) -> at_ (values s) i j = at_ (cx f) i j /\ at_ (msk s) i j = at_ (vmsk f) i j.
Proof.
  intros (Xs & Ys & Ms) C [Ix Iy] Lx Ly. unfold comp_x_sf.
  destruct (import_gradient (vg f) (cx f) (vmsk f) (vuv f) Ix Iy Lx Ly Xs Ms) as (s & E & O & P).
  exists s. split; [exact E|]. split; [exact O|].
  assert (forall i j, i < length (ax (vg f)) -> j < length (ay (vg f)) -> at_ (values s) i j = at_ (cx f) i j /\ at_ (msk s) i j = at_ (vmsk f) i j) as Q.
  { intros i j Hi Hj. destruct (P i j) as [-> ->]. destruct (C i j Hi Hj) as [[C1 C2] _].
    destruct (at_ (vmsk f) i j); cbn [orb]; [split; [symmetry; now apply C2|reflexivity]|].
    destruct (at_ (cx f) i j); [split; reflexivity|]. specialize (C1 eq_refl). discriminate. }
  split; [|exact Q]. apply sf_clean_idx. destruct O as (-> & _). intros i j Hi Hj. destruct (Q i j Hi Hj) as [-> ->]. now apply C.
Qed.
Lemma comp_y_run f : vf_wf f -> vf_clean f -> grid_sorted (vg f) -> 2 <= length (ax (vg f)) -> 2 <= length (ay (vg f)) ->
  exists s, comp_y_sf f = Ok s /\ on_grid (vg f) s (vuv f) /\ sf_clean s /\
    forall i j, i < length (ax (vg f)) -> j < length (ay (vg f)) -> at_ (values s) i j = at_ (cy f) i j /\ at_ (msk s) i j = at_ (vmsk f) i j.
Proof.
  intros (Xs & Ys & Ms) C [Ix Iy] Lx Ly. unfold comp_y_sf.
  destruct (import_gradient (vg f) (cy f) (vmsk f) (vuv f) Ix Iy Lx Ly Ys Ms) as (s & E & O & P).
  exists s. split; [exact E|]. split; [exact O|].
  assert (forall i j, i < length (ax (vg f)) -> j < length (ay (vg f)) -> at_ (values s) i j = at_ (cy f) i j /\ at_ (msk s) i j = at_ (vmsk f) i j) as Q.
  { intros i j Hi Hj. destruct (P i j) as [-> ->]. destruct (C i j Hi Hj) as [_ [C1 C2]].
    destruct (at_ (vmsk f) i j); cbn [orb]; [split; [symmetry; now apply C2|reflexivity]|].
    destruct (at_ (cy f) i j); [split; reflexivity|]. specialize (C1 eq_refl). discriminate. }
  split; [|exact Q]. apply sf_clean_idx. destruct O as (-> & _). intros i j Hi Hj. destruct (Q i j Hi Hj) as [-> ->]. now apply C.
Qed.
Lemma any_masked_ext s g (k : arr bool) : sf_wf s -> sg s = g -> (forall i j, i < length (ax g) -> j < length (ay g) -> at_ (msk s) i j = at_ k i j) ->
  (any_masked s = true <-> exists i j, i < length (ax g) /\ j < length (ay g) /\ at_ k i j = true).
Proof.
  intros [_ [M0 M1]] Eg H. rewrite any_masked_true, M0, M1, Eg. split; intros (i & j & Hi & Hj & M); exists i, j; repeat split; auto.
  - now rewrite <- H. - now rewrite H.
Qed.
Lemma vf_fill_run nearest linear cubic f kind vx vy : vf_wf f -> vf_clean f -> grid_sorted (vg f) ->
  2 <= length (ax (vg f)) -> 2 <= length (ay (vg f)) ->
  (kind <> FOther \/ forall i j, i < length (ax (vg f)) -> j < length (ay (vg f)) -> at_ (vmsk f) i j = false) ->
  exists sx sy f', comp_x_sf f = Ok sx /\ comp_y_sf f = Ok sy /\
    vf_fill nearest linear cubic f kind vx vy = Ok f' /\ on_vgrid (vg f) (vuv f) f' /\
    forall i j, i < length (ax (vg f)) -> j < length (ay (vg f)) ->
      let newx := if at_ (vmsk f) i j then replacement (nearest sx i j) (linear sx i j) (cubic sx i j) kind vx else at_ (cx f) i j in
      let newy := if at_ (vmsk f) i j then replacement (nearest sy i j) (linear sy i j) (cubic sy i j) kind vy else at_ (cy f) i j in
      let k := (isnan newx || isnan newy)%bool in
      at_ (vmsk f') i j = k /\ at_ (cx f') i j = (if k then None else newx) /\ at_ (cy f') i j = (if k then None else newy).
Proof.
  intros W C G Lx Ly K.
  destruct (comp_x_run f W C G Lx Ly) as (sx & Ex & (Gx & Ux & Wx) & Cx & Px).
  destruct (comp_y_run f W C G Lx Ly) as (sy & Ey & (Gy & Uy & Wy) & Cy & Py).
  assert (kind <> FOther \/ any_masked sx = false) as Kx.
  { destruct K as [K|K]; [now left|right]. apply any_masked_false. destruct Wx as [_ [M0 M1]]. rewrite M0, M1, Gx. intros i j Hi Hj.
    destruct (Px i j Hi Hj) as [_ ->]. now apply K. }
  assert (kind <> FOther \/ any_masked sy = false) as Ky.
  { destruct K as [K|K]; [now left|right]. apply any_masked_false. destruct Wy as [_ [M0 M1]]. rewrite M0, M1, Gy. intros i j Hi Hj.
    destruct (Py i j Hi Hj) as [_ ->]. now apply K. }
  destruct (sf_fill_run nearest linear cubic sx kind vx Wx Cx ltac:(now rewrite Gx) ltac:(now rewrite Gx) ltac:(now rewrite Gx) Kx)
    as (fx & Fx & (Gfx & Ufx & Wfx) & Qx).
  destruct (sf_fill_run nearest linear cubic sy kind vy Wy Cy ltac:(now rewrite Gy) ltac:(now rewrite Gy) ltac:(now rewrite Gy) Ky)
    as (fy & Fy & (Gfy & Ufy & Wfy) & Qy).
  pose proof (values_shape _ Wfx) as Sx. pose proof (values_shape _ Wfy) as Sy. rewrite Gfx, Gx in Sx. rewrite Gfy, Gy in Sy.
  destruct G as [Ix Iy].
  assert (has_shape (afull (d0 (values fx)) (d1 (values fx)) false) (length (ax (vg f))) (length (ay (vg f)))) as Sm.
  { destruct Sx. split; assumption. }
  destruct (vf_import_plain (ax (vg f)) (ay (vg f)) (values fx) (values fy) _ (ux (vg f)) (uy (vg f)) (vuv f) Ix Iy Lx Ly Sx Sy Sm)
    as (f' & E & O & P).
  exists sx, sy, f'. split; [exact Ex|]. split; [exact Ey|]. split.
  { unfold vf_fill. rewrite Ex. cbn [bind]. rewrite Ey. cbn [bind]. rewrite Fx. cbn [bind]. rewrite Fy. cbn [bind]. exact E. }
  split. { replace (vg f) with (mkgrid (ax (vg f)) (ay (vg f)) (ux (vg f)) (uy (vg f))) by now destruct (vg f). exact O. }
  intros i j Hi Hj. cbv zeta. destruct (P i j) as (-> & -> & ->). cbn [afull at_ orb].
  rewrite Gx in Qx. rewrite Gy in Qy. destruct (Qx i j Hi Hj) as [-> _]. destruct (Qy i j Hi Hj) as [-> _].
  destruct (Px i j Hi Hj) as [-> ->]. destruct (Py i j Hi Hj) as [-> ->]. repeat split.
Qed.

Lemma vf_fill_lemma nearest linear cubic f kind vx vy : vf_wf f -> vf_clean f -> grid_sorted (vg f) ->
  2 <= length (ax (vg f)) -> 2 <= length (ay (vg f)) -> kind <> FOther ->
  (forall s i j, nearest s i j <> None) ->
  exists sx sy f', comp_x_sf f = Ok sx /\ comp_y_sf f = Ok sy /\
    vf_fill nearest linear cubic f kind vx vy = Ok f' /\ on_vgrid (vg f) (vuv f) f' /\ vf_full f' /\
    forall i j, i < length (ax (vg f)) -> j < length (ay (vg f)) ->
      (at_ (vmsk f) i j = false -> at_ (cx f') i j = at_ (cx f) i j /\ at_ (cy f') i j = at_ (cy f) i j) /\
      (at_ (vmsk f) i j = true ->
         at_ (cx f') i j = replacement (nearest sx i j) (linear sx i j) (cubic sx i j) kind vx /\
         at_ (cy f') i j = replacement (nearest sy i j) (linear sy i j) (cubic sy i j) kind vy).
Proof.
  intros W C G Lx Ly K N.
  destruct (vf_fill_run nearest linear cubic f kind vx vy W C G Lx Ly (or_introl K)) as (sx & sy & f' & Ex & Ey & E & O & P).
  exists sx, sy, f'. split; [exact Ex|]. split; [exact Ey|]. split; [exact E|]. split; [exact O|].
  assert (forall s i j v, exists w, replacement (nearest s i j) (linear s i j) (cubic s i j) kind v = Some w) as R.
  { intros s i j v. specialize (N s i j). destruct kind; cbn; unfold or_else; try congruence; [eauto| |destruct (linear s i j)|destruct (cubic s i j)];
      destruct (nearest s i j); try congruence; eauto. }
  assert (forall i j, i < length (ax (vg f)) -> j < length (ay (vg f)) -> at_ (vmsk f) i j = false ->
     (exists a, at_ (cx f) i j = Some a) /\ (exists b, at_ (cy f) i j = Some b)) as Cf.
  { intros i j Hi Hj M. destruct (C i j Hi Hj) as [[C1 _] [C2 _]].
    destruct (at_ (cx f) i j); [|rewrite M in C1; specialize (C1 eq_refl); discriminate].
    destruct (at_ (cy f) i j); [|rewrite M in C2; specialize (C2 eq_refl); discriminate]. eauto. }
  destruct O as (Og & _). split.
  - unfold vf_full. rewrite Og. intros i j Hi Hj. destruct (P i j Hi Hj) as (-> & -> & ->).
    destruct (at_ (vmsk f) i j) eqn:M.
    + destruct (R sx i j vx) as (a & ->), (R sy i j vy) as (b & ->). cbn. eauto.
    + destruct (Cf i j Hi Hj M) as ((a & ->) & (b & ->)). cbn. eauto.
  - intros i j Hi Hj. destruct (P i j Hi Hj) as (_ & -> & ->). split; intro M; rewrite M.
    + destruct (Cf i j Hi Hj M) as ((a & ->) & (b & ->)). split; reflexivity.
    + destruct (R sx i j vx) as (a & ->), (R sy i j vy) as (b & ->). split; reflexivity.
Qed.
Lemma full_clean f : vf_full f -> vf_clean f.
Proof.
  intros F i j Hi Hj. destruct (F i j Hi Hj) as (-> & (a & ->) & (b & ->)). split; split; discriminate.
Qed.
Lemma vf_fill_none_lemma nearest linear cubic f kind vx vy : vf_wf f -> vf_full f -> grid_sorted (vg f) ->
  2 <= length (ax (vg f)) -> 2 <= length (ay (vg f)) ->
  exists f', vf_fill nearest linear cubic f kind vx vy = Ok f' /\ vf_same f' f.
Proof.
  intros W F G Lx Ly.
  destruct (vf_fill_run nearest linear cubic f kind vx vy W (full_clean f F) G Lx Ly) as (sx & sy & f' & _ & _ & E & (Og & Ou & Ow) & P).
  { right. intros i j Hi Hj. now apply F. }
  exists f'. split; [exact E|]. destruct Ow as ([X0 X1] & [Y0 Y1] & [M0 M1]), W as ([X0' X1'] & [Y0' Y1'] & [M0' M1']).
  unfold vf_same. rewrite Og, Ou. rewrite Og in *.
  repeat split; try congruence.
  - rewrite X0, X1. intros i j Hi Hj. destruct (P i j Hi Hj) as (_ & -> & _). destruct (F i j Hi Hj) as (-> & (a & ->) & (b & ->)). reflexivity.
  - rewrite Y0, Y1. intros i j Hi Hj. destruct (P i j Hi Hj) as (_ & _ & ->). destruct (F i j Hi Hj) as (-> & (a & ->) & (b & ->)). reflexivity.
  - rewrite M0, M1. intros i j Hi Hj. destruct (P i j Hi Hj) as (-> & _). destruct (F i j Hi Hj) as (-> & (a & ->) & (b & ->)). reflexivity.
Qed.
