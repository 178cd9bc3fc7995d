From Verif Require Import Num Res ListLib SortLib Arr FieldModel ScalarFieldModel VectorFieldModel FieldSpec FieldProofs FieldProofs2 ScalarProofs GradModel GradSpec GradProofs GradProofs2.

Definition default_fill (nearest linear cubic : interps) (f : vfield) : res vfield := vf_fill nearest linear cubic f FLinear 0%num 0%num.

Lemma same_at f g : vf_same f g -> vf_wf f -> vf_wf g -> vg f = vg g /\
  forall i j, i < length (ax (vg g)) -> j < length (ay (vg g)) ->
    at_ (cx f) i j = at_ (cx g) i j /\ at_ (cy f) i j = at_ (cy g) i j /\ at_ (vmsk f) i j = at_ (vmsk g) i j.
Proof.
  intros (A & B & C & D & _ & (_ & _ & X) & (_ & _ & Y) & (_ & _ & M)) ([X0 X1] & [Y0 Y1] & [M0 M1]) _. split.
  - destruct (vg f), (vg g); cbn in *; congruence.
  - rewrite A, B in *. intros i j Hi Hj. repeat split; [apply X|apply Y|apply M]; lia.
Qed.

(** ** vorticity and divergence of a field without mask *)
Lemma fill_full nearest linear cubic f : vf_wf f -> vf_full f -> grid_sorted (vg f) -> 2 <= length (ax (vg f)) -> 2 <= length (ay (vg f)) ->
  exists t, default_fill nearest linear cubic f = Ok t /\ on_vgrid (vg f) (vuv f) t /\
    forall i j, i < length (ax (vg f)) -> j < length (ay (vg f)) ->
      at_ (cx t) i j = at_ (cx f) i j /\ at_ (cy t) i j = at_ (cy f) i j /\ at_ (vmsk t) i j = false.
Proof.
  intros W F G Lx Ly. unfold default_fill.
  destruct (vf_fill_run nearest linear cubic f FLinear 0%num 0%num W (full_clean f F) G Lx Ly) as (sx & sy & t & _ & _ & E & O & P).
  { left. discriminate. }
  exists t. split; [exact E|]. split; [exact O|]. intros i j Hi Hj. destruct (P i j Hi Hj) as (-> & -> & ->).
  destruct (F i j Hi Hj) as (-> & (a & ->) & (b & ->)). cbn. repeat split.
Qed.
Lemma vf_is_full f G H : vf_is f G H -> vf_full f.
Proof.
  intro F. pose proof (proj1 (vf_is_idx f _ _) F) as P. intros i j Hi Hj. destruct (P i j Hi Hj) as (-> & -> & ->). eauto.
Qed.
Lemma evenly_sorted g hx hy : evenly (ax g) hx -> evenly (ay g) hy -> grid_sorted g.
Proof. intros Ex Ey. split; [now apply (evenly_increasing _ hx)|now apply (evenly_increasing _ hy)]. Qed.

Lemma vorticity_run nearest linear cubic f hx hy : vf_wf f -> vf_full f -> evenly (ax (vg f)) hx -> evenly (ay (vg f)) hy ->
  exists s, vf_vorticity (default_fill nearest linear cubic) f = Ok s /\ on_grid (vg f) s (unit_div (vuv f) (ux (vg f))) /\
    forall i j, i < length (ax (vg f)) -> j < length (ay (vg f)) ->
      let v := odiv (osub (at_ (grad0 hx (cy f)) i j) (at_ (grad1 hy (cx f)) i j)) (Some 2%num) in
      at_ (values s) i j = v /\ at_ (msk s) i j = isnan v.
Proof.
  intros W F Ex Ey. pose proof (evenly_sorted _ _ _ Ex Ey) as G. pose proof Ex as (_ & Lx & _). pose proof Ey as (_ & Ly & _).
  destruct (fill_full nearest linear cubic f W F G Lx Ly) as (t & E & (Tg & Tu & Xs & Ys & Ms) & P).
  unfold vf_vorticity. rewrite E. cbn [bind]. rewrite Tg in *. rewrite !ltb2 by assumption. cbn [orb guard].
  rewrite (evenly_step _ _ Ex), (evenly_step _ _ Ey). destruct G as [Ix Iy].
  edestruct (import_gradient (vg f)) as (s & Es & Os & Ps); [exact Ix|exact Iy|exact Lx|exact Ly| |exact Ms|
    exists s; split; [exact Es|]; split; [exact Os|]].
  { exact Ys. }
  intros i j Hi Hj. destruct (Ps i j) as [-> ->]. destruct (P i j Hi Hj) as (_ & _ & ->). cbn [orb].
  cbn [amap amap2 at_].
  assert (at_ (grad0 hx (cy t)) i j = at_ (grad0 hx (cy f)) i j) as ->.
  { unfold grad0. cbn [at_]. destruct Ys as [Y0 Y1], W as (_ & [Y0' Y1'] & _). rewrite Y0, Y0'.
    pose proof (gpair_spec _ i Lx Hi) as S. destruct (gpair (length (ax (vg f))) i) as [p q]. destruct S as (S1 & S2 & _).
    destruct (P p j S1 Hj) as (_ & -> & _). destruct (P q j S2 Hj) as (_ & -> & _). reflexivity. }
  assert (at_ (grad1 hy (cx t)) i j = at_ (grad1 hy (cx f)) i j) as ->.
  { unfold grad1. cbn [at_]. destruct Xs as [Y0 Y1], W as ([Y0' Y1'] & _ & _). rewrite Y1, Y1'.
    pose proof (gpair_spec _ j Ly Hj) as S. destruct (gpair (length (ay (vg f))) j) as [p q]. destruct S as (S1 & S2 & _).
    destruct (P i p Hi S1) as (-> & _ & _). destruct (P i q Hi S2) as (-> & _ & _). reflexivity. }
  cbv zeta. destruct (odiv _ _); cbn; split; reflexivity.
Qed.
Lemma divergence_run nearest linear cubic f hx hy : vf_wf f -> vf_full f -> evenly (ax (vg f)) hx -> evenly (ay (vg f)) hy ->
  exists s, vf_divergence (default_fill nearest linear cubic) f = Ok s /\ on_grid (vg f) s (unit_div (vuv f) (ux (vg f))) /\
    forall i j, i < length (ax (vg f)) -> j < length (ay (vg f)) ->
      let v := oadd (at_ (grad0 hx (cx f)) i j) (at_ (grad1 hy (cy f)) i j) in
      at_ (values s) i j = v /\ at_ (msk s) i j = isnan v.
Proof.
  intros W F Ex Ey. pose proof (evenly_sorted _ _ _ Ex Ey) as G. pose proof Ex as (_ & Lx & _). pose proof Ey as (_ & Ly & _).
  destruct (fill_full nearest linear cubic f W F G Lx Ly) as (t & E & (Tg & Tu & Xs & Ys & Ms) & P).
  unfold vf_divergence. rewrite E. cbn [bind]. rewrite Tg in *. rewrite !ltb2 by assumption. cbn [orb guard].
  rewrite (evenly_step _ _ Ex), (evenly_step _ _ Ey). destruct G as [Ix Iy].
  edestruct (import_gradient (vg f)) as (s & Es & Os & Ps); [exact Ix|exact Iy|exact Lx|exact Ly| |exact Ms|
    exists s; split; [exact Es|]; split; [exact Os|]].
  { exact Xs. }
  intros i j Hi Hj. destruct (Ps i j) as [-> ->]. destruct (P i j Hi Hj) as (_ & _ & ->). cbn [orb].
  cbn [amap amap2 at_].
  assert (at_ (grad0 hx (cx t)) i j = at_ (grad0 hx (cx f)) i j) as ->.
  { unfold grad0. cbn [at_]. destruct Xs as [Y0 Y1], W as ([Y0' Y1'] & _ & _). rewrite Y0, Y0'.
    pose proof (gpair_spec _ i Lx Hi) as S. destruct (gpair (length (ax (vg f))) i) as [p q]. destruct S as (S1 & S2 & _).
    destruct (P p j S1 Hj) as (-> & _ & _). destruct (P q j S2 Hj) as (-> & _ & _). reflexivity. }
  assert (at_ (grad1 hy (cy t)) i j = at_ (grad1 hy (cy f)) i j) as ->.
  { unfold grad1. cbn [at_]. destruct Ys as [Y0 Y1], W as (_ & [Y0' Y1'] & _). rewrite Y1, Y1'.
    pose proof (gpair_spec _ j Ly Hj) as S. destruct (gpair (length (ay (vg f))) j) as [p q]. destruct S as (S1 & S2 & _).
    destruct (P i p Hi S1) as (_ & -> & _). destruct (P i q Hi S2) as (_ & -> & _). reflexivity. }
  cbv zeta. destruct (oadd _ _); cbn; split; reflexivity.
Qed.

(** linear fields: u = a0 + a1 x + a2 y, v = b0 + b1 x + b2 y *)
Lemma vorticity_linear_lemma nearest linear cubic f hx hy a0 a1 a2 b0 b1 b2 :
  vf_wf f -> evenly (ax (vg f)) hx -> evenly (ay (vg f)) hy ->
  vf_is f (fun x y => a0 + a1 * x + a2 * y)%num (fun x y => b0 + b1 * x + b2 * y)%num ->
  exists s, vf_vorticity (default_fill nearest linear cubic) f = Ok s /\ on_grid (vg f) s (unit_div (vuv f) (ux (vg f))) /\
    sf_is s (fun _ _ => (b1 - a2) / 2)%num.
Proof.
  intros W Ex Ey F. destruct (vorticity_run nearest linear cubic f hx hy W (vf_is_full _ _ _ F) Ex Ey) as (s & E & O & P).
  exists s. split; [exact E|]. split; [exact O|]. apply sf_is_idx. destruct O as (-> & _).
  pose proof (proj1 (vf_is_idx f _ _) F) as F'. destruct W as ([X0 X1] & [Y0 Y1] & _).
  intros i j Hi Hj. destruct (P i j Hi Hj) as [-> ->].
  rewrite (grad0_lin (ax (vg f)) (ay (vg f)) (cy f) hx b0 b1 b2 Ex Y0 Y1 (fun i j Hi Hj => proj1 (proj2 (F' i j Hi Hj))) i j Hi Hj).
  rewrite (grad1_lin (ax (vg f)) (ay (vg f)) (cx f) hy a0 a1 a2 Ey X0 X1 (fun i j Hi Hj => proj1 (F' i j Hi Hj)) i j Hi Hj).
  split; reflexivity.
Qed.
Lemma divergence_linear_lemma nearest linear cubic f hx hy a0 a1 a2 b0 b1 b2 :
  vf_wf f -> evenly (ax (vg f)) hx -> evenly (ay (vg f)) hy ->
  vf_is f (fun x y => a0 + a1 * x + a2 * y)%num (fun x y => b0 + b1 * x + b2 * y)%num ->
  exists s, vf_divergence (default_fill nearest linear cubic) f = Ok s /\ on_grid (vg f) s (unit_div (vuv f) (ux (vg f))) /\
    sf_is s (fun _ _ => a1 + b2)%num.
Proof.
  intros W Ex Ey F. destruct (divergence_run nearest linear cubic f hx hy W (vf_is_full _ _ _ F) Ex Ey) as (s & E & O & P).
  exists s. split; [exact E|]. split; [exact O|]. apply sf_is_idx. destruct O as (-> & _).
  pose proof (proj1 (vf_is_idx f _ _) F) as F'. destruct W as ([X0 X1] & [Y0 Y1] & _).
  intros i j Hi Hj. destruct (P i j Hi Hj) as [-> ->].
  rewrite (grad0_lin (ax (vg f)) (ay (vg f)) (cx f) hx a0 a1 a2 Ex X0 X1 (fun i j Hi Hj => proj1 (F' i j Hi Hj)) i j Hi Hj).
  rewrite (grad1_lin (ax (vg f)) (ay (vg f)) (cy f) hy b0 b1 b2 Ey Y0 Y1 (fun i j Hi Hj => proj1 (proj2 (F' i j Hi Hj))) i j Hi Hj).
  split; reflexivity.
Qed.
(** a field with masked vectors: the vorticity is that of the filled field, and has no mask *)
Lemma vorticity_filled_lemma nearest linear cubic f hx hy : vf_wf f -> vf_clean f -> evenly (ax (vg f)) hx -> evenly (ay (vg f)) hy ->
  (forall s i j, nearest s i j <> None) ->
  exists t s s', default_fill nearest linear cubic f = Ok t /\ vf_full t /\
    vf_vorticity (default_fill nearest linear cubic) f = Ok s /\ vf_vorticity (default_fill nearest linear cubic) t = Ok s' /\
    sf_same s s' /\ nothing_masked s.
Proof.
  intros W C Ex Ey N. pose proof (evenly_sorted _ _ _ Ex Ey) as G. pose proof Ex as (Hx & Lx & _). pose proof Ey as (Hy & Ly & _).
  destruct (vf_fill_lemma nearest linear cubic f FLinear 0%num 0%num W C G Lx Ly ltac:(discriminate) N)
    as (sx & sy & t & _ & _ & E & (Tg & Tu & Tw) & Tf & _).
  pose proof Ex as Ex'. pose proof Ey as Ey'. rewrite <- Tg in Ex', Ey'.
  destruct (vorticity_run nearest linear cubic t hx hy Tw Tf Ex' Ey') as (s' & Es' & (O1' & O2' & O3') & P').
  destruct Tw as (Xs & Ys & Ms). rewrite Tg in *. destruct G as [Ix Iy].
  destruct (import_gradient (vg f) (amap (fun a => odiv a (Some 2%num)) (amap2 osub (grad0 hx (cy t)) (grad1 hy (cx t)))) (vmsk t)
              (unit_div (vuv f) (ux (vg f))) Ix Iy Lx Ly Ys Ms) as (s & Es & (O1 & O2 & O3) & P).
  exists t, s, s'. split; [exact E|]. split; [exact Tf|]. split.
  { unfold vf_vorticity. unfold default_fill at 1. rewrite E. cbn [bind]. rewrite Tg, !ltb2 by assumption. cbn [orb guard].
    rewrite (evenly_step _ _ Ex), (evenly_step _ _ Ey). exact Es. }
  split; [exact Es'|]. unfold vf_full in Tf. rewrite Tg in Tf.
  assert (forall i j, i < length (ax (vg f)) -> j < length (ay (vg f)) ->
     at_ (values s) i j = at_ (values s') i j /\ at_ (msk s) i j = false /\ at_ (msk s') i j = false) as Q.
  { intros i j Hi Hj. destruct (P i j) as [-> ->]. destruct (P' i j Hi Hj) as [-> ->]. destruct (Tf i j Hi Hj) as (-> & _).
    cbn [amap amap2 at_ orb].
    assert (exists a, at_ (grad0 hx (cy t)) i j = Some a) as [a ->].
    { unfold grad0. cbn [at_]. destruct Ys as [-> _]. pose proof (gpair_spec _ i Lx Hi) as S.
      destruct (gpair (length (ax (vg f))) i) as [p q]. destruct S as (S1 & S2 & _).
      destruct (Tf p j S1 Hj) as (_ & _ & (u & ->)). destruct (Tf q j S2 Hj) as (_ & _ & (v & ->)). cbn.
      destruct (qeqb_spec (gstep (length (ax (vg f))) i hx) 0%num) as [Z|Z]; [|eauto]. now apply gstep_nz in Z. }
    assert (exists a, at_ (grad1 hy (cx t)) i j = Some a) as [b ->].
    { unfold grad1. cbn [at_]. destruct Xs as [_ ->]. pose proof (gpair_spec _ j Ly Hj) as S.
      destruct (gpair (length (ay (vg f))) j) as [p q]. destruct S as (S1 & S2 & _).
      destruct (Tf i p Hi S1) as (_ & (u & ->) & _). destruct (Tf i q Hi S2) as (_ & (v & ->) & _). cbn.
      destruct (qeqb_spec (gstep (length (ay (vg f))) j hy) 0%num) as [Z|Z]; [|eauto]. now apply gstep_nz in Z. }
    cbn. repeat split; reflexivity. }
  pose proof (values_shape _ O3) as [V0 V1]. pose proof (values_shape _ O3') as [V0' V1'].
  rewrite O1 in V0, V1. rewrite O1' in V0', V1'.
  split.
  - unfold sf_same. rewrite O1, O1', O2, O2', Tu. destruct O3 as [_ [M0 M1]], O3' as [_ [M0' M1']]. rewrite O1 in M0, M1. rewrite O1' in M0', M1'.
    repeat split; try congruence.
    + rewrite V0, V1. intros i j Hi Hj. now apply Q.
    + rewrite M0, M1. intros i j Hi Hj. destruct (Q i j Hi Hj) as (_ & -> & ->). reflexivity.
  - apply nothing_masked_idx; [exact O3|]. apply any_masked_false. destruct O3 as [_ [M0 M1]]. rewrite M0, M1, O1.
    intros i j Hi Hj. now apply Q.
Qed.

(** ** Q criterion *)
Lemma qcrit_linear_lemma junk f hx hy a0 a1 a2 b0 b1 b2 :
  vf_wf f -> evenly (ax (vg f)) hx -> evenly (ay (vg f)) hy ->
  vf_is f (fun x y => a0 + a1 * x + a2 * y)%num (fun x y => b0 + b1 * x + b2 * y)%num ->
  exists s, vf_qcrit junk f None = Ok s /\
    on_grid (vg f) s (unit_mul (unit_div (vuv f) (ux (vg f))) (unit_div (vuv f) (ux (vg f)))) /\
    let rot2 := ((a2 - b1) * (a2 - b1) * qq 1 2)%num in
    let shear2 := (a1 * a1 + (a2 + b1) * (a2 + b1) * qq 1 2 + b2 * b2)%num in
    sf_is s (fun _ _ => rot2 * qq 1 2 - shear2)%num.
Proof.
  intros W Ex Ey F. pose proof (evenly_sorted _ _ _ Ex Ey) as [Ix Iy]. pose proof Ex as (_ & Lx & _). pose proof Ey as (_ & Ly & _).
  pose proof (proj1 (vf_is_idx f _ _) F) as F'. destruct W as ([X0 X1] & [Y0 Y1] & [M0 M1]).
  unfold vf_qcrit. rewrite !ltb2 by assumption. cbn [orb guard]. rewrite (evenly_step _ _ Ex), (evenly_step _ _ Ey).
  edestruct (import_gradient (vg f)) as (s & Es & Os & Ps); [exact Ix|exact Iy|exact Lx|exact Ly| | |
    exists s; split; [exact Es|]; split; [exact Os|]]; try (split; assumption).
  cbv zeta. apply sf_is_idx. destruct Os as (-> & _). intros i j Hi Hj. destruct (Ps i j) as [-> ->]. cbn [at_ afull d0 d1].
  rewrite (gmask_none (ax (vg f)) (ay (vg f)) hx hy (vmsk f) Ex Ey M0 M1) by (try assumption; intros; now apply F').
  rewrite (grad0_lin (ax (vg f)) (ay (vg f)) (cx f) hx a0 a1 a2 Ex X0 X1 (fun i j Hi Hj => proj1 (F' i j Hi Hj)) i j Hi Hj).
  rewrite (grad1_lin (ax (vg f)) (ay (vg f)) (cx f) hy a0 a1 a2 Ey X0 X1 (fun i j Hi Hj => proj1 (F' i j Hi Hj)) i j Hi Hj).
  rewrite (grad0_lin (ax (vg f)) (ay (vg f)) (cy f) hx b0 b1 b2 Ex Y0 Y1 (fun i j Hi Hj => proj1 (proj2 (F' i j Hi Hj))) i j Hi Hj).
  rewrite (grad1_lin (ax (vg f)) (ay (vg f)) (cy f) hy b0 b1 b2 Ey Y0 Y1 (fun i j Hi Hj => proj1 (proj2 (F' i j Hi Hj))) i j Hi Hj).
  split; reflexivity.
Qed.
(** a positive value: the eigenvalues of the velocity gradient are not real *)
Lemma qcrit_sign (a1 a2 b1 b2 : num) :
  (0 < (a2 - b1) * (a2 - b1) * qq 1 2 * qq 1 2 - (a1 * a1 + (a2 + b1) * (a2 + b1) * qq 1 2 + b2 * b2))%num ->
  forall l, ((a1 - l) * (b2 - l) - a2 * b1)%num <> 0%num.
Proof.
  intros H l E.
  assert (0 <= (a1 + b2 - 2 * l) * (a1 + b2 - 2 * l))%num by apply qsq_nonneg.
  assert (0 <= (a1 + b2) * (a1 + b2))%num by apply qsq_nonneg.
  assert (0 <= (a2 + b1) * (a2 + b1))%num by apply qsq_nonneg.
  assert (0 <= a1 * a1)%num by apply qsq_nonneg. assert (0 <= b2 * b2)%num by apply qsq_nonneg.
  assert (((a1 + b2 - 2 * l) * (a1 + b2 - 2 * l))%num = ((a1 + b2) * (a1 + b2) - 2 * 2 * (a1 * b2 - a2 * b1) + 2 * 2 * ((a1 - l) * (b2 - l) - a2 * b1))%num) by qring.
  rewrite E in H5. rewrite H5 in H0. clear H5 E l.
  assert (((a2 - b1) * (a2 - b1))%num = ((a2 + b1) * (a2 + b1) - 2 * 2 * (a2 * b1))%num) by qring. rewrite H5 in H.
  assert (((a1 + b2) * (a1 + b2))%num = (a1 * a1 + 2 * (a1 * b2) + b2 * b2)%num) by qring. rewrite H6 in *.
  qlra.
Qed.
