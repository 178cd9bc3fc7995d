(** * GradProofs6: gradients of any field and of profiles, fields used in the examples, counterexamples *)
From Verif Require Import Num Res ListLib SortLib Arr FieldModel ScalarFieldModel VectorFieldModel ProfileModel PointsModel FieldSpec FieldProofs FieldProofs2
  ProfileSpec ProfileProofs GradModel GradSpec GradProofs GradProofs2 GradProofs3 GradProofs4 GradProofs5 Concrete TemporalEx.

(** ** the value of a gradient at any cell that is not masked *)
Lemma sf_gradients_value f hx hy : sf_wf f -> sf_clean f -> evenly (ax (sg f)) hx -> evenly (ay (sg f)) hy ->
  exists gx gy, sf_gradients f = Ok (gx, gy) /\
    forall i j, i < length (ax (sg f)) -> j < length (ay (sg f)) -> at_ (msk gx) i j = false ->
      (exists p q u v, stencil (length (ax (sg f))) i p /\ stencil (length (ax (sg f))) i q /\ p < q /\
         at_ (values f) p j = Some u /\ at_ (values f) q j = Some v /\
         at_ (values gx) i j = Some ((v - u) / (nths (ax (sg f)) q - nths (ax (sg f)) p))%num) /\
      (exists p q u v, stencil (length (ay (sg f))) j p /\ stencil (length (ay (sg f))) j q /\ p < q /\
         at_ (values f) i p = Some u /\ at_ (values f) i q = Some v /\
         at_ (values gy) i j = Some ((v - u) / (nths (ay (sg f)) q - nths (ay (sg f)) p))%num).
Proof.
  intros W C Ex Ey. destruct (sf_gradients_run f hx hy W Ex Ey) as (gx & gy & E & Ox & Oy & P).
  destruct (sf_gradients_mask f hx hy W C Ex Ey) as (gx' & gy' & E' & Cx & Cy & Q).
  assert (gx' = gx) by congruence. assert (gy' = gy) by congruence. subst gx' gy'.
  exists gx, gy. split; [exact E|]. intros i j Hi Hj M. destruct (Q i j Hi Hj) as [Mxy Mk].
  pose proof (values_shape f W) as [V0 V1].
  pose proof Ex as (Hx & Lx & _). pose proof Ey as (Hy & Ly & _). rewrite sf_clean_idx in C.
  assert (forall k, stencil (length (ax (sg f))) i k -> exists u, at_ (values f) k j = Some u) as Sx.
  { intros k Hk. destruct (at_ (values f) k j) as [u|] eqn:N; [eauto|]. exfalso.
    apply C in N; [|now apply (stencil_lt _ i)|assumption]. rewrite (proj2 Mk) in M; [discriminate|]. left. eauto. }
  assert (forall k, stencil (length (ay (sg f))) j k -> exists u, at_ (values f) i k = Some u) as Sy.
  { intros k Hk. destruct (at_ (values f) i k) as [u|] eqn:N; [eauto|]. exfalso.
    apply C in N; [|assumption|now apply (stencil_lt _ j)]. rewrite (proj2 Mk) in M; [discriminate|]. right. eauto. }
  destruct (P i j) as (Px & Mx & Py & My). rewrite M in Mx. rewrite <- Mxy, M in My. rewrite <- Mx in Px. rewrite <- My in Py.
  split.
  - pose proof (gpair_spec _ i Lx Hi) as G. pose proof (gstep_axis _ hx i Ex Hi) as Gs.
    destruct (gpair (length (ax (sg f))) i) as [p q] eqn:Ep. cbn [fst snd] in Gs. destruct G as (G1 & G2 & G3 & G4 & _).
    assert (stencil (length (ax (sg f))) i p) as Tp by (apply G4; tauto).
    assert (stencil (length (ax (sg f))) i q) as Tq by (apply G4; tauto).
    destruct (Sx p Tp) as (u & Eu). destruct (Sx q Tq) as (v & Ev). exists p, q, u, v. repeat (split; [assumption|]).
    rewrite Px, (grad0_at (values f) hx i j p q u v) by (try assumption; now rewrite V0). now rewrite V0, Gs.
  - pose proof (gpair_spec _ j Ly Hj) as G. pose proof (gstep_axis _ hy j Ey Hj) as Gs.
    destruct (gpair (length (ay (sg f))) j) as [p q] eqn:Ep. cbn [fst snd] in Gs. destruct G as (G1 & G2 & G3 & G4 & _).
    assert (stencil (length (ay (sg f))) j p) as Tp by (apply G4; tauto).
    assert (stencil (length (ay (sg f))) j q) as Tq by (apply G4; tauto).
    destruct (Sy p Tp) as (u & Eu). destruct (Sy q Tq) as (v & Ev). exists p, q, u, v. repeat (split; [assumption|]).
    rewrite Py, (grad1_at (values f) hy i j p q u v) by (try assumption; now rewrite V1). now rewrite V1, Gs.
Qed.

(** ** profiles *)
Definition line (a b : num) (x : num) : sample := (x, Some (a + b * x)%num, false).
Lemma samples_line p a b : samples p = map (line a b) (px p) -> length (yv p) = length (px p) -> length (pm p) = length (px p) ->
  yv p = map (fun x => Some (a + b * x)%num) (px p) /\ pm p = repeat false (length (px p)).
Proof.
  unfold samples. generalize (px p) (yv p) (pm p). induction l as [|x l IH]; intros [|y ys] [|m ms] H L1 L2; cbn in *; try discriminate; [tauto|].
  injection H as -> -> H. destruct (IH ys ms H) as [-> ->]; [lia|lia|]. tauto.
Qed.
Lemma map_const_seq {A B} (c : B) (l : list A) s : map (fun _ : nat => c) (seq s (length l)) = map (fun _ : A => c) l.
Proof. revert s. induction l as [|x l IH]; intro s; [reflexivity|]. cbn. f_equal. apply IH. Qed.
Lemma prof_gradient_linear p h a b : prof_ok p -> evenly (px p) h -> samples p = map (line a b) (px p) ->
  exists q, prof_gradient p = Ok q /\ pux q = pux p /\ puy q = unit_div (puy p) (pux p) /\
    samples q = map (fun x => (x, Some (b * h)%num, false)) (px p).
Proof.
  intros OK Ev H. pose proof OK as (L1 & L2 & _).
  destruct (samples_line p a b H) as [Y M]; [rewrite yv_length; congruence|congruence|].
  pose proof Ev as (Hh & Hl & He).
  unfold prof_gradient. assert (Nat.ltb (length (px p)) 2 = false) as -> by (apply Nat.ltb_ge; lia). cbn [guard].
  set (g := map _ _).
  assert (g = map (fun _ => Some (b * h)%num) (px p)) as ->.
  { unfold g. rewrite Y, map_length.
    transitivity (map (fun _ : nat => Some (b * h)%num) (seq 0 (length (px p)))).
    - apply map_ext_in. intros i Hi. apply in_seq in Hi. pose proof (gpair_spec _ i Hl ltac:(lia)) as S.
      pose proof (gstep_spec (length (px p)) i (qz 1) Hl ltac:(lia)) as Gs.
      destruct (gpair (length (px p)) i) as [u v]. destruct S as (S1 & S2 & S3 & _). cbn [fst snd] in Gs.
      assert (forall k, k < length (px p) -> nth k (map (fun x => Some (a + b * x)%num) (px p)) None = Some (a + b * (nths (px p) 0 + qn k * h))%num) as Hn.
      { intros k Hk. rewrite nth_indep with (d' := (fun x => Some (a + b * x)%num) (qz 0)) by (now rewrite map_length).
        rewrite (map_nth (fun x => Some (a + b * x)%num)). now rewrite <- (He k Hk). }
      rewrite (Hn u S1), (Hn v S2). unfold osub, lift2, odiv.
      pose proof (gstep_pos (length (px p)) i (qz 1) ltac:(reflexivity)) as Gp.
      destruct (qeqb_spec (gstep (length (px p)) i (qz 1)) 0%num) as [Z|Z]; [rewrite Z in Gp; exfalso; qlra|].
      f_equal. rewrite Gs. rewrite Gs in Z. revert Z. generalize (nths (px p) 0). intros w Z. qfield. intro K. apply Z. rewrite <- K. qring.
    - apply map_const_seq. }
  destruct (new_lemma (px p) (map (fun _ => Some (b * h)%num) (px p)) (Some (pm p)) (pux p) (unit_div (puy p) (pux p)))
    as (q & E & _ & U & V & _ & S); [now rewrite map_length|congruence|].
  exists q. split; [exact E|]. split; [exact U|]. split; [exact V|].
  destruct S as [_ S].
  { pose proof (evenly_increasing _ _ Ev) as I. intros i j Hij Hj. apply Nat.le_lteq in Hij. destruct Hij as [Hij|<-]; [|apply Qcle_refl].
    apply Qclt_le_weak. now apply I. }
  rewrite S, M. clear. induction (px p) as [|x l IH]; [reflexivity|]. cbn. f_equal. exact IH.
Qed.

(** ** linear fields on evenly spaced grids, of any size *)
Definition ramp (n : nat) (x0 h : num) : list num := map (fun k => x0 + qn k * h)%num (seq 0 n).
Lemma ramp_length n x0 h : length (ramp n x0 h) = n.
Proof. unfold ramp. now rewrite map_length, seq_length. Qed.
Lemma ramp_nth n x0 h i : i < n -> nths (ramp n x0 h) i = (x0 + qn i * h)%num.
Proof.
  intro Hi. unfold ramp. rewrite nth_indep with (d' := (fun k => x0 + qn k * h)%num 0) by (now rewrite map_length, seq_length).
  rewrite (map_nth (fun k => x0 + qn k * h)%num). now rewrite seq_nth.
Qed.
Lemma ramp_evenly n x0 h : 2 <= n -> (0 < h)%num -> evenly (ramp n x0 h) h.
Proof.
  intros Hn Hh. split; [exact Hh|]. rewrite ramp_length. split; [exact Hn|]. intros i Hi. rewrite !ramp_nth by lia.
  change (qn 0) with (qz 0). qring.
Qed.
(** u = a0 + a1 x + a2 y, v = b0 + b1 x + b2 y *)
Definition lin_vf (n m : nat) (hx hy a0 a1 a2 b0 b1 b2 : num) : vfield :=
  let X := ramp n 0%num hx in let Y := ramp m 0%num hy in
  mkvf (mkgrid X Y metre metre)
       (mkarr n m (fun i j => Some (a0 + a1 * nths X i + a2 * nths Y j)%num))
       (mkarr n m (fun i j => Some (b0 + b1 * nths X i + b2 * nths Y j)%num)) (mkarr n m (fun _ _ => false)) metre.
Definition lin_sf (n m : nat) (hx hy a b c : num) : sfield :=
  let X := ramp n 0%num hx in let Y := ramp m 0%num hy in
  mksf (mkgrid X Y metre metre) (mkarr n m (fun i j => Some (a + b * nths X i + c * nths Y j)%num)) (mkarr n m (fun _ _ => false)) metre.
Lemma lin_vf_ok n m hx hy a0 a1 a2 b0 b1 b2 : 2 <= n -> 2 <= m -> (0 < hx)%num -> (0 < hy)%num ->
  let f := lin_vf n m hx hy a0 a1 a2 b0 b1 b2 in
  vf_wf f /\ evenly (ax (vg f)) hx /\ evenly (ay (vg f)) hy /\
  vf_is f (fun x y => a0 + a1 * x + a2 * y)%num (fun x y => b0 + b1 * x + b2 * y)%num.
Proof.
  intros Hn Hm Hx Hy f. unfold f, lin_vf, vf_wf, has_shape. cbn [vg ax ay cx cy vmsk d0 d1]. rewrite !ramp_length.
  split; [tauto|]. split; [now apply ramp_evenly|]. split; [now apply ramp_evenly|].
  apply vf_is_idx. intros i j _ _. cbn [vg ax ay cx cy vmsk at_]. tauto.
Qed.
Lemma lin_sf_ok n m hx hy a b c : 2 <= n -> 2 <= m -> (0 < hx)%num -> (0 < hy)%num ->
  let f := lin_sf n m hx hy a b c in
  sf_wf f /\ evenly (ax (sg f)) hx /\ evenly (ay (sg f)) hy /\ sf_is f (fun x y => a + b * x + c * y)%num.
Proof.
  intros Hn Hm Hx Hy f. unfold f, lin_sf, sf_wf, has_shape. cbn [sg ax ay values msk d0 d1]. rewrite !ramp_length.
  split; [tauto|]. split; [now apply ramp_evenly|]. split; [now apply ramp_evenly|].
  apply sf_is_idx. intros i j _ _. cbn [sg ax ay values msk at_]. tauto.
Qed.

(** ** counterexamples *)
(** the vorticity of the rotation (-w y, w x) is w, not 2 w, whatever the grid *)
Lemma vorticity_refuted nearest linear cubic n m hx hy w : 2 <= n -> 2 <= m -> (0 < hx)%num -> (0 < hy)%num -> w <> 0%num ->
  exists f s, vf_is f (fun _ y => - w * y)%num (fun x _ => w * x)%num /\
    vf_vorticity (default_fill nearest linear cubic) f = Ok s /\ sf_is s (fun _ _ => w) /\ ~ sf_is s (fun _ _ => 2 * w)%num.
Proof.
  intros Hn Hm Hx Hy Hw. destruct (lin_vf_ok n m hx hy 0 0 (- w) 0 w 0 Hn Hm Hx Hy) as (W & Ex & Ey & F).
  set (f := lin_vf n m hx hy 0 0 (- w) 0 w 0) in *.
  destruct (vorticity_linear_lemma nearest linear cubic f hx hy _ _ _ _ _ _ W Ex Ey F) as (s & E & (G & _ & Ws) & Q).
  exists f, s. split. { intros x y vx vy k H. destruct (F _ _ _ _ _ H) as (-> & -> & ->). repeat split; f_equal; qring. }
  split; [exact E|].
  assert (sf_is s (fun _ _ => w)) as Q'. { intros x y v k H. destruct (Q _ _ _ _ H) as (-> & ->). split; [|reflexivity]. f_equal. qfield. discriminate. }
  split; [exact Q'|]. intro K. pose proof (proj1 (sf_is_idx s _) Q') as I1. pose proof (proj1 (sf_is_idx s _) K) as I2.
  rewrite G in I1, I2. destruct (I1 0 0) as [A _]. 1,2: unfold f, lin_vf; cbn [vg ax ay]; rewrite ramp_length; lia.
  destruct (I2 0 0) as [B _]. 1,2: unfold f, lin_vf; cbn [vg ax ay]; rewrite ramp_length; lia.
  rewrite A in B. injection B as B. apply Hw. qlra.
Qed.
(** the circulation is divided by the area of w x w cells, it goes around (w-1) x (w-1) of them: half the vorticity and more is lost with small windows *)
Lemma stokes_refuted : exists f s, vf_is f (fun _ y => - y)%num (fun x _ => x)%num /\ vf_stokes f 2 = Ok s /\
  sf_is s (fun _ _ => half) /\ ~ sf_is s (fun _ _ => 2%num).
Proof.
  destruct (lin_vf_ok 4 4 1 1 0 0 (- (1)) 0 1 0 ltac:(lia) ltac:(lia) eq_refl eq_refl) as (W & Ex & Ey & F).
  set (f := lin_vf 4 4 1 1 0 0 (- (1)) 0 1 0) in *.
  destruct (stokes_linear_lemma f _ _ 2 _ _ _ _ _ _ W Ex Ey F) as (s & E & Q); try (cbn; lia).
  exists f, s. split. { intros x y vx vy k H. destruct (F _ _ _ _ _ H) as (-> & -> & ->). repeat split; f_equal; qring. }
  split; [exact E|].
  assert (sf_is s (fun _ _ => half)) as Q'. { intros x y v k H. destruct (Q _ _ _ _ H) as (-> & ->). split; reflexivity. }
  split; [exact Q'|]. intro K. pose proof (proj1 (sf_is_idx s _) Q') as I1. pose proof (proj1 (sf_is_idx s _) K) as I2.
  destruct (stokes_grid_lemma f _ _ 2 W (full_clean _ (vf_is_full _ _ _ F)) Ex Ey) as (s' & E' & _ & _ & _ & _ & L1 & L2 & _); try (cbn; lia).
  assert (s' = s) by congruence. subst s'.
  destruct (I1 0 0) as [A _]; [rewrite L1; cbn; lia|rewrite L2; cbn; lia|].
  destruct (I2 0 0) as [B _]; [rewrite L1; cbn; lia|rewrite L2; cbn; lia|].
  rewrite A in B. discriminate.
Qed.
(** the window of the size of the field is accepted by the checks and raises *)
Lemma stokes_whole_refuted : vf_stokes (lin_vf 4 4 1 1 0 0 (- (1)) 0 1 0) 4 = Err IndexErr.
Proof. vm_compute. reflexivity. Qed.
(** pure shear: rotation and strain have the same norm and Q is not 0 *)
Lemma qcrit_refuted junk : exists f s, vf_is f (fun _ y => y)%num (fun _ _ => 0%num) /\ vf_qcrit junk f None = Ok s /\
  sf_is s (fun _ _ => - qq 1 4)%num /\
  forall a1 a2 b1 b2 : num, (a1, a2, b1, b2) = (0, 1, 0, 0)%num ->
    ((half * (2 * (half * (a2 - b1)) * (half * (a2 - b1)) - (a1 * a1 + b2 * b2 + 2 * (half * (a2 + b1)) * (half * (a2 + b1)))))%num = 0%num).
Proof.
  destruct (lin_vf_ok 4 4 1 1 0 0 1 0 0 0 ltac:(lia) ltac:(lia) eq_refl eq_refl) as (W & Ex & Ey & F).
  set (f := lin_vf 4 4 1 1 0 0 1 0 0 0) in *.
  destruct (qcrit_linear_lemma junk f _ _ _ _ _ _ _ _ W Ex Ey F) as (s & E & _ & Q).
  exists f, s. split. { intros x y vx vy k H. destruct (F _ _ _ _ _ H) as (-> & -> & ->). repeat split; f_equal; qring. }
  split; [exact E|]. split.
  { intros x y v k H. destruct (Q _ _ _ _ H) as (-> & ->). split; [f_equal; qc|reflexivity]. }
  intros a1 a2 b1 b2 H. injection H as -> -> -> ->. qc.
Qed.
(** next to a masked vector, what numpy left under the mask of the gradient is shown *)
Definition masked_vf : vfield :=
  mkvf (mkgrid (ramp 4 0 1) (ramp 4 0 1) metre metre)
       (mkarr 4 4 (fun i j => if (Nat.eqb i 1 && Nat.eqb j 1)%bool then None else Some (qn (i + j))))
       (mkarr 4 4 (fun i j => if (Nat.eqb i 1 && Nat.eqb j 1)%bool then None else Some (qn (i * j))))
       (mkarr 4 4 (fun i j => (Nat.eqb i 1 && Nat.eqb j 1)%bool)) metre.
Lemma qcrit_mask_refuted : vf_wf masked_vf /\ vf_clean masked_vf /\ at_ (vmsk masked_vf) 1 1 = true /\
  forall q, exists s, vf_qcrit (fun _ _ => Some q) masked_vf None = Ok s /\
    at_ (values s) 2 1 = Some q /\ at_ (msk s) 2 1 = false /\ at_ (msk s) 1 1 = false.
Proof.
  split; [now vm_compute|]. split.
  { intros i j Hi Hj. cbn in Hi, Hj. destruct i as [|[|[|[|i]]]]; try lia; destruct j as [|[|[|[|j]]]]; try lia; cbn; split; split; congruence. }
  split; [reflexivity|]. intro q.
  unfold vf_qcrit. change (Nat.ltb (length (ax (vg masked_vf))) 2 || Nat.ltb (length (ay (vg masked_vf))) 2)%bool with false. cbn [guard].
  rewrite sf_import_plain; [|incr|incr|cbn; lia|cbn; lia|reflexivity|reflexivity]. eexists. split; [reflexivity|].
  cbn [values msk at_ amap2 amap].
  assert (at_ (gmask (step0 (ax (vg masked_vf))) (step0 (ay (vg masked_vf))) (vmsk masked_vf)) 2 1 = true) as -> by (vm_compute; reflexivity).
  split; [reflexivity|]. split; [reflexivity|].
  assert (at_ (gmask (step0 (ax (vg masked_vf))) (step0 (ay (vg masked_vf))) (vmsk masked_vf)) 1 1 = false) as -> by (vm_compute; reflexivity).
  vm_compute. reflexivity.
Qed.
(** y = x at 0, 2, 4: the slope shown is 2 *)
Definition ex_line : profile := mkprof (zs [0; 2; 4]%Z) [oz 0; oz 2; oz 4] [false; false; false] metre metre.
Lemma prof_gradient_refuted : prof_ok ex_line /\ evenly (px ex_line) 2%num /\ samples ex_line = map (line 0%num 1%num) (px ex_line) /\
  exists q, prof_gradient ex_line = Ok q /\ samples q = map (fun x => (x, Some 2%num, false)) (px ex_line).
Proof.
  assert (evenly (px ex_line) 2%num) as Ev.
  { split; [reflexivity|]. split; [cbn; lia|]. intros [|[|[|i]]] Hi; try qc. cbn in Hi. lia. }
  assert (prof_ok ex_line) as OK.
  { split; [reflexivity|]. split; [reflexivity|]. split; [|reflexivity]. pose proof (evenly_increasing _ _ Ev) as I.
    intros i j Hij Hj. apply Nat.le_lteq in Hij. destruct Hij as [Hij|<-]; [|apply Qcle_refl]. apply Qclt_le_weak. now apply I. }
  assert (samples ex_line = map (line 0%num 1%num) (px ex_line)) as S.
  { unfold samples, line. cbn. repeat f_equal. }
  split; [exact OK|]. split; [exact Ev|]. split; [exact S|].
  destruct (prof_gradient_linear ex_line 2%num 0%num 1%num OK Ev S) as (q & E & _ & _ & H). exists q. split; [exact E|]. rewrite H.
  apply map_ext. intro x. repeat f_equal.
Qed.
Definition no_interp : interps := fun _ _ _ => None.
Definition dfill : vfield -> res vfield := default_fill no_interp no_interp no_interp.
(** the cells near the border are counted with the mean of the two steps: with different steps a neighbour is outside *)
Lemma radius_pos_refuted : let f := lin_vf 7 7 (qz 3) 1%num 0 0 (- (1)) 0 1 0 in
  vf_wf f /\ vf_full f /\ evenly (ax (vg f)) (qz 3) /\ evenly (ay (vg f)) 1%num /\
  vf_enstrophy (vf_vorticity dfill) f None (qz 4) false = Err IndexErr.
Proof.
  cbv zeta. destruct (lin_vf_ok 7 7 (qz 3) 1%num 0 0 (- (1)) 0 1 0 ltac:(lia) ltac:(lia) eq_refl eq_refl) as (W & Ex & Ey & F).
  split; [exact W|]. split; [exact (vf_is_full _ _ _ F)|]. split; [exact Ex|]. split; [exact Ey|]. vm_compute. reflexivity.
Qed.
(** a hole in the middle of a 7 x 7 field *)
Definition hole_vf : vfield :=
  mkvf (mkgrid (ramp 7 0 1) (ramp 7 0 2) metre metre)
       (mkarr 7 7 (fun i j => if (Nat.eqb i 3 && Nat.eqb j 3)%bool then None else Some (qn (i + j))))
       (mkarr 7 7 (fun i j => if (Nat.eqb i 3 && Nat.eqb j 3)%bool then None else Some (qn (i * j))))
       (mkarr 7 7 (fun i j => (Nat.eqb i 3 && Nat.eqb j 3)%bool)) metre.
Lemma hole_ok : vf_wf hole_vf /\ vf_clean hole_vf /\ evenly (ax (vg hole_vf)) 1%num /\ evenly (ay (vg hole_vf)) 2%num.
Proof.
  split; [now vm_compute|]. split.
  { intros i j _ _. unfold hole_vf. cbn [cx cy vmsk at_]. destruct (Nat.eqb i 3 && Nat.eqb j 3)%bool; split; split; congruence. }
  split; apply ramp_evenly; try lia; reflexivity.
Qed.
(** the disc of radius 1 around (1, 1) is usable, the one around (2, 3) holds the hole, the one around (0, 4) leaves the field *)
Lemma hole_spoiled : let sp := spoiled 7 7 (both_masks hole_vf None) 1%num in ~ sp 1 1 /\ sp 2 3 /\ sp 0 4.
Proof.
  cbv zeta. destruct hole_ok as (W & _). destruct (neighbourhood_ind_lemma hole_vf None 1%num W I eq_refl) as (k & E & _ & _ & P).
  assert (forall i j, i < 7 -> j < 7 -> (skipped k i j = true <-> spoiled 7 7 (both_masks hole_vf None) 1%num i j)) as P' by exact P.
  destruct (ok_ex (neighbourhood hole_vf None 1%num true)
    (fun k => (negb (skipped k 1 1) && skipped k 2 3 && skipped k 0 4)%bool)) as (k' & E' & H); [vm_compute; reflexivity|].
  assert (k' = k) by congruence. subst k'. apply andb_true_iff in H. destruct H as [H H3]. apply andb_true_iff in H. destruct H as [H1 H2].
  split; [|split].
  - intro K. apply P' in K; [|lia|lia]. apply negb_true_iff in H1. congruence.
  - apply P'; [lia|lia|exact H2].
  - apply P'; [lia|lia|exact H3].
Qed.
