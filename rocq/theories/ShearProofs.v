(** * ShearProofs: proofs for ShearModel. *)
From Verif Require Import Num Res ListLib SortLib Arr FieldModel ScalarFieldModel VectorFieldModel FieldSpec FieldProofs FieldProofs2 ProfileModel ProfileSpec ProfileProofs PointsModel
  Prof2Model Prof2Spec Prof2Proofs7 Vf2Model GradModel GradSpec GradProofs GradProofs2 ShearModel ShearSpec.

Notation evenly := GradSpec.evenly.
Lemma slope_x_ok X a h i j : evenly X h -> d0 a = length X -> lt i (length X) ->
  (forall k, stencil (length X) i k -> exists u, at_ a k j = Some u) -> slope_x X a i j (at_ (grad0 h a) i j) /\ isnan (at_ (grad0 h a) i j) = false.
Proof.
  intros E D Hi H. pose proof E as (Hh & Hl & _). pose proof (gpair_spec _ _ Hl Hi) as G. pose proof (gstep_axis X h i E Hi) as Gs.
  destruct (gpair (length X) i) as [p q] eqn:Ep. cbn [fst snd] in Gs. destruct G as (S1 & S2 & S3 & S4 & _).
  destruct (H p) as [u Hu]; [apply S4; tauto|]. destruct (H q) as [w Hw]; [apply S4; tauto|].
  assert (V : at_ (grad0 h a) i j = Some ((w - u) / (nths X q - nths X p))%num).
  { rewrite (grad0_at a h i j p q u w ltac:(rewrite D; exact Ep) Hu Hw Hh). rewrite D, Gs. reflexivity. }
  rewrite V. split; [|reflexivity]. exists p, q, u, w. split; [apply S4; tauto|]. split; [apply S4; tauto|]. repeat split; assumption.
Qed.
Lemma slope_y_ok Y a h i j : evenly Y h -> d1 a = length Y -> lt j (length Y) ->
  (forall k, stencil (length Y) j k -> exists u, at_ a i k = Some u) -> slope_y Y a i j (at_ (grad1 h a) i j) /\ isnan (at_ (grad1 h a) i j) = false.
Proof.
  intros E D Hi H. pose proof E as (Hh & Hl & _). pose proof (gpair_spec _ _ Hl Hi) as G. pose proof (gstep_axis Y h j E Hi) as Gs.
  destruct (gpair (length Y) j) as [p q] eqn:Ep. cbn [fst snd] in Gs. destruct G as (S1 & S2 & S3 & S4 & _).
  destruct (H p) as [u Hu]; [apply S4; tauto|]. destruct (H q) as [w Hw]; [apply S4; tauto|].
  assert (V : at_ (grad1 h a) i j = Some ((w - u) / (nths Y q - nths Y p))%num).
  { rewrite (grad1_at a h i j p q u w ltac:(rewrite D; exact Ep) Hu Hw Hh). rewrite D, Gs. reflexivity. }
  rewrite V. split; [|reflexivity]. exists p, q, u, w. split; [apply S4; tauto|]. split; [apply S4; tauto|]. repeat split; assumption.
Qed.
Lemma gmask_iff f hx hy i j : vf_wf f -> evenly (ax (vg f)) hx -> evenly (ay (vg f)) hy ->
  lt i (length (ax (vg f))) -> lt j (length (ay (vg f))) ->
  (at_ (gmask hx hy (vmsk f)) i j = true <-> needs_masked f i j).
Proof.
  intros (_ & _ & [M0 M1]) Ex Ey Hi Hj. pose proof Ex as (Hx & Lx & _). pose proof Ey as (Hy & Ly & _).
  unfold gmask, needs_masked. cbn [amap2 at_]. rewrite orb_true_iff, gmask0_spec, gmask1_spec, M0, M1; try lia; [reflexivity|..];
    intro Z; rewrite Z in *; qlra.
Qed.
Lemma cell_some f i j : vf_clean f -> lt i (length (ax (vg f))) -> lt j (length (ay (vg f))) -> at_ (vmsk f) i j = false ->
  (exists u, at_ (cx f) i j = Some u) /\ (exists v, at_ (cy f) i j = Some v).
Proof.
  intros C Hi Hj M. destruct (C i j Hi Hj) as [A B]. split.
  - destruct (at_ (cx f) i j); [eexists; reflexivity|]. rewrite (proj1 A eq_refl) in M. discriminate M.
  - destruct (at_ (cy f) i j); [eexists; reflexivity|]. rewrite (proj1 B eq_refl) in M. discriminate M.
Qed.

Lemma grad_field_ok f hx hy d : vf_wf f -> vf_clean f -> evenly (ax (vg f)) hx -> evenly (ay (vg f)) hy -> d <> GOther ->
  exists g, get_grad_field f d = Ok g /\ on_vgrid (vg f) (vuv f) g /\
    forall i j, lt i (length (ax (vg f))) -> lt j (length (ay (vg f))) ->
      (at_ (vmsk g) i j = true <-> needs_masked f i j) /\
      (at_ (vmsk g) i j = false ->
         slope_x (ax (vg f)) (comp_of d f) i j (at_ (cx g) i j) /\ slope_y (ay (vg f)) (comp_of d f) i j (at_ (cy g) i j)).
Proof.
  intros W C Ex Ey D. destruct (vf_gradients_run f hx hy W Ex Ey) as (g1 & g2 & g3 & g4 & E & O1 & O2 & O3 & O4 & P).
  pose proof W as (Xs & Ys & Ms). pose proof Ex as (_ & Lx & _). pose proof Ey as (_ & Ly & _).
  pose proof (evenly_increasing _ _ Ex) as Ix. pose proof (evenly_increasing _ _ Ey) as Iy.
  set (gvx := match d with GX => g1 | _ => g3 end). set (gvy := match d with GX => g2 | _ => g4 end).
  assert (Sx : has_shape (values gvx) (length (ax (vg f))) (length (ay (vg f)))).
  { unfold gvx. destruct d; [destruct O1 as (Sg & _ & Wg)|destruct O3 as (Sg & _ & Wg)|destruct O3 as (Sg & _ & Wg)]; rewrite <- Sg; apply values_shape; exact Wg. }
  assert (Sy : has_shape (values gvy) (length (ax (vg f))) (length (ay (vg f)))).
  { unfold gvy. destruct d; [destruct O2 as (Sg & _ & Wg)|destruct O4 as (Sg & _ & Wg)|destruct O4 as (Sg & _ & Wg)]; rewrite <- Sg; apply values_shape; exact Wg. }
  destruct (vf_import_plain (ax (vg f)) (ay (vg f)) (values gvx) (values gvy) (afull (d0 (values gvx)) (d1 (values gvx)) false)
              (ux (vg f)) (uy (vg f)) (vuv f) Ix Iy Lx Ly Sx Sy) as (g & Eg & Og & Pg).
  { destruct Sx as [-> ->]. split; reflexivity. }
  exists g. split.
  { unfold get_grad_field. rewrite E. cbn [bind]. destruct d; [exact Eg|exact Eg|exfalso; apply D; reflexivity]. }
  split; [destruct Og as (G1 & G2 & G3); repeat split; try assumption; try apply G3; destruct (vg f); exact G1|].
  intros i j Hi Hj. specialize (Pg i j). cbv zeta in Pg. destruct Pg as (Pm & Px & Py).
  change (at_ (afull (d0 (values gvx)) (d1 (values gvx)) false) i j) with false in Pm, Px, Py.
  assert (V : at_ (values gvx) i j = (if (at_ (gmask hx hy (vmsk f)) i j || isnan (at_ (grad0 hx (comp_of d f)) i j))%bool then None else at_ (grad0 hx (comp_of d f)) i j) /\
              at_ (values gvy) i j = (if (at_ (gmask hx hy (vmsk f)) i j || isnan (at_ (grad1 hy (comp_of d f)) i j))%bool then None else at_ (grad1 hy (comp_of d f)) i j)).
  { specialize (P i j). cbv zeta in P. destruct P as ([P1 _] & [P2 _] & [P3 _] & [P4 _]). unfold gvx, gvy, comp_of. destruct d; split; assumption. }
  destruct V as [Vx Vy]. rewrite Vx, Vy in *.
  destruct (at_ (gmask hx hy (vmsk f)) i j) eqn:G.
  - apply (gmask_iff f hx hy i j W Ex Ey Hi Hj) in G. cbn in Pm. rewrite Pm. split; [split; [intros _; exact G|reflexivity]|discriminate].
  - assert (NG : ~ needs_masked f i j) by (intros N; apply (gmask_iff f hx hy i j W Ex Ey Hi Hj) in N; congruence).
    assert (H0 : d0 (comp_of d f) = length (ax (vg f)) /\ d1 (comp_of d f) = length (ay (vg f))) by (destruct d; [exact Xs|exact Ys|exact Ys]).
    destruct (slope_x_ok (ax (vg f)) (comp_of d f) hx i j Ex (proj1 H0) Hi) as [A1 A2].
    { intros k K. pose proof (stencil_lt _ _ _ K) as Lk.
      destruct (cell_some f k j C Lk Hj) as [U V]; [destruct (at_ (vmsk f) k j) eqn:Z; [exfalso; apply NG; left; exists k; split; assumption|reflexivity]|].
      destruct d; assumption. }
    destruct (slope_y_ok (ay (vg f)) (comp_of d f) hy i j Ey (proj2 H0) Hj) as [B1 B2].
    { intros k K. pose proof (stencil_lt _ _ _ K) as Lk.
      destruct (cell_some f i k C Hi Lk) as [U V]; [destruct (at_ (vmsk f) i k) eqn:Z; [exfalso; apply NG; right; exists k; split; assumption|reflexivity]|].
      destruct d; assumption. }
    rewrite A2, B2 in Pm, Px, Py. cbn [orb] in Pm, Px, Py. rewrite A2, B2 in Pm, Px, Py. cbn [orb] in Pm, Px, Py.
    rewrite Pm, Px, Py. split; [split; [discriminate|intros N; exfalso; exact (NG N)]|]. intros _. split; assumption.
Qed.
Lemma grad_field_other f : get_grad_field f GOther = Err ValueErr. Proof. reflexivity. Qed.

Lemma no_mask_any f : vf_wf f -> vf_full f -> any_masked (vproj f) = false.
Proof.
  intros (_ & _ & [M0 M1]) F. unfold any_masked. destruct (existsb _ _) eqn:E; [|reflexivity]. exfalso. 
  apply existsb_exists in E. destruct E as [b [I B]]. cbn [vproj msk] in I. unfold flatten in I.
  apply in_map_iff in I. destruct I as [[i j] [I1 I2]]. cbn in I1. unfold aidx in I2. apply in_flat_map in I2. destruct I2 as [i' [H1 H2]].
  apply in_map_iff in H2. destruct H2 as [j' [H2 H3]]. injection H2 as <- <-. apply in_seq in H1, H3. rewrite M0 in H1. rewrite M1 in H3.
  destruct (F i' j' ltac:(lia) ltac:(lia)) as [Z _]. congruence.
Qed.
Lemma field_shear_ok f hx hy : vf_wf f -> vf_full f -> evenly (ax (vg f)) hx -> evenly (ay (vg f)) hy ->
  exists g, field_shear f = Ok g /\ on_vgrid (vg f) (vuv f) g /\
    forall i j, lt i (length (ax (vg f))) -> lt j (length (ay (vg f))) ->
      at_ (vmsk g) i j = false /\ slope_x (ax (vg f)) (cy f) i j (at_ (cx g) i j) /\ slope_y (ay (vg f)) (cx f) i j (at_ (cy g) i j).
Proof.
  intros W F Ex Ey. pose proof W as (Xs & Ys & Ms). pose proof Ex as (_ & Lx & _). pose proof Ey as (_ & Ly & _).
  pose proof (evenly_increasing _ _ Ex) as Ix. pose proof (evenly_increasing _ _ Ey) as Iy.
  unfold field_shear, vf_crop_masked_border. rewrite (no_mask_any f W F). cbn [bind]. rewrite !ltb2 by assumption. cbn [orb guard].
  rewrite (evenly_step _ _ Ex), (evenly_step _ _ Ey).
  destruct (vf_import_plain (ax (vg f)) (ay (vg f)) (grad0 hx (cy f)) (grad1 hy (cx f)) (vmsk f) (ux (vg f)) (uy (vg f)) (vuv f) Ix Iy Lx Ly) as (g & Eg & Og & Pg);
    [exact Ys|exact Xs|exact Ms|].
  exists g. split; [exact Eg|]. split; [destruct Og as (G1 & G2 & G3); repeat split; try assumption; try apply G3; destruct (vg f); exact G1|].
  intros i j Hi Hj. specialize (Pg i j). cbv zeta in Pg. destruct Pg as (Pm & Px & Py).
  destruct (slope_x_ok (ax (vg f)) (cy f) hx i j Ex (proj1 Ys) Hi) as [A1 A2].
  { intros k K. apply (F k j (stencil_lt _ _ _ K) Hj). }
  destruct (slope_y_ok (ay (vg f)) (cx f) hy i j Ey (proj2 Xs) Hj) as [B1 B2].
  { intros k K. apply (F i k Hi (stencil_lt _ _ _ K)). }
  destruct (F i j Hi Hj) as [M _]. rewrite A2, B2, M in Pm, Px, Py. cbn [orb] in *. rewrite Pm, Px, Py. repeat split; assumption.
Qed.
(** slopes of linear arrays *)
Lemma slope_x_lin X Y a i j v (c0 c1 c2 : num) : increasing X -> lt j (length Y) ->
  (forall i j, lt i (length X) -> lt j (length Y) -> at_ a i j = Some (c0 + c1 * nths X i + c2 * nths Y j)%num) ->
  slope_x X a i j v -> v = Some c1.
Proof.
  intros I Hj H (p & q & u & w & S1 & S2 & L & U & V & ->). pose proof (stencil_lt _ _ _ S1) as Lp. pose proof (stencil_lt _ _ _ S2) as Lq.
  rewrite (H p j Lp Hj) in U. rewrite (H q j Lq Hj) in V. injection U as <-. injection V as <-.
  pose proof (I p q L Lq) as Lt. f_equal. apply slope_linear. exact Lt.
Qed.
Lemma slope_y_lin X Y a i j v (c0 c1 c2 : num) : increasing Y -> lt i (length X) ->
  (forall i j, lt i (length X) -> lt j (length Y) -> at_ a i j = Some (c0 + c1 * nths X i + c2 * nths Y j)%num) ->
  slope_y Y a i j v -> v = Some c2.
Proof.
  intros I Hi H (p & q & u & w & S1 & S2 & L & U & V & ->). pose proof (stencil_lt _ _ _ S1) as Lp. pose proof (stencil_lt _ _ _ S2) as Lq.
  rewrite (H i p Hi Lp) in U. rewrite (H i q Hi Lq) in V. injection U as <-. injection V as <-.
  pose proof (I p q L Lq) as Lt. f_equal. apply slope_linear'. exact Lt.
Qed.
Lemma vf_is_full f G H : vf_is f G H -> vf_full f.
Proof. intros I i j Hi Hj. destruct (proj1 (vf_is_idx f G H) I i j Hi Hj) as (A & B & M). split; [exact M|]. split; eexists; eassumption. Qed.
Lemma full_clean f : vf_full f -> vf_clean f.
Proof. intros F i j Hi Hj. destruct (F i j Hi Hj) as [M [[a A] [b B]]]. rewrite A, B, M. split; split; discriminate. Qed.
Lemma grad_field_linear f hx hy d a0 a1 a2 b0 b1 b2 : vf_wf f -> evenly (ax (vg f)) hx -> evenly (ay (vg f)) hy -> d <> GOther ->
  vf_is f (fun x y => a0 + a1 * x + a2 * y)%num (fun x y => b0 + b1 * x + b2 * y)%num ->
  exists g, get_grad_field f d = Ok g /\ vg g = vg f /\
    vf_is g (fun _ _ => match d with GX => a1 | _ => b1 end) (fun _ _ => match d with GX => a2 | _ => b2 end).
Proof.
  intros W Ex Ey D F. pose proof (vf_is_full _ _ _ F) as FU.
  destruct (grad_field_ok f hx hy d W (full_clean f FU) Ex Ey D) as (g & E & (G1 & _ & _) & P). exists g. split; [exact E|]. split; [exact G1|].
  pose proof (evenly_increasing _ _ Ex) as Ix. pose proof (evenly_increasing _ _ Ey) as Iy.
  pose proof (proj1 (vf_is_idx f _ _) F) as K. apply vf_is_idx. rewrite G1. intros i j Hi Hj. destruct (P i j Hi Hj) as [P1 P2].
  assert (M : at_ (vmsk g) i j = false).
  { destruct (at_ (vmsk g) i j) eqn:Z; [|reflexivity]. exfalso. destruct (proj1 P1 eq_refl) as [(k & S1 & S2)|(k & S1 & S2)].
    - destruct (FU k j (stencil_lt _ _ _ S1) Hj). congruence.
    - destruct (FU i k Hi (stencil_lt _ _ _ S1)). congruence. }
  destruct (P2 M) as [Q1 Q2]. split; [|split; [|exact M]].
  - destruct d; [| |exfalso; apply D; reflexivity].
    + exact (slope_x_lin (ax (vg f)) (ay (vg f)) (cx f) i j _ a0 a1 a2 Ix Hj (fun i j Hi Hj => proj1 (K i j Hi Hj)) Q1).
    + exact (slope_x_lin (ax (vg f)) (ay (vg f)) (cy f) i j _ b0 b1 b2 Ix Hj (fun i j Hi Hj => proj1 (proj2 (K i j Hi Hj))) Q1).
  - destruct d; [| |exfalso; apply D; reflexivity].
    + exact (slope_y_lin (ax (vg f)) (ay (vg f)) (cx f) i j _ a0 a1 a2 Iy Hi (fun i j Hi Hj => proj1 (K i j Hi Hj)) Q2).
    + exact (slope_y_lin (ax (vg f)) (ay (vg f)) (cy f) i j _ b0 b1 b2 Iy Hi (fun i j Hi Hj => proj1 (proj2 (K i j Hi Hj))) Q2).
Qed.
Lemma field_shear_linear f hx hy a0 a1 a2 b0 b1 b2 : vf_wf f -> evenly (ax (vg f)) hx -> evenly (ay (vg f)) hy ->
  vf_is f (fun x y => a0 + a1 * x + a2 * y)%num (fun x y => b0 + b1 * x + b2 * y)%num ->
  exists g, field_shear f = Ok g /\ vg g = vg f /\ vf_is g (fun _ _ => b1) (fun _ _ => a2).
Proof.
  intros W Ex Ey F. destruct (field_shear_ok f hx hy W (vf_is_full _ _ _ F) Ex Ey) as (g & E & (G1 & _ & _) & P). exists g. split; [exact E|]. split; [exact G1|].
  pose proof (evenly_increasing _ _ Ex) as Ix. pose proof (evenly_increasing _ _ Ey) as Iy.
  pose proof (proj1 (vf_is_idx f _ _) F) as K. apply vf_is_idx. rewrite G1. intros i j Hi Hj. destruct (P i j Hi Hj) as (M & Q1 & Q2). split; [|split; [|exact M]].
  - exact (slope_x_lin (ax (vg f)) (ay (vg f)) (cy f) i j _ b0 b1 b2 Ix Hj (fun i j Hi Hj => proj1 (proj2 (K i j Hi Hj))) Q1).
  - exact (slope_y_lin (ax (vg f)) (ay (vg f)) (cx f) i j _ a0 a1 a2 Iy Hi (fun i j Hi Hj => proj1 (K i j Hi Hj)) Q2).
Qed.

(** ** at the wall *)
Lemma zip3_repeat (x : list num) (y : list onum) : length y = length x -> zip3 x y (repeat false (length x)) = map (fun z => (z, false)) (combine x y).
Proof.
  unfold zip3. revert y. induction x as [|a x IH]; intros [|b y] L; try discriminate L; [reflexivity|]. cbn in L. injection L as L.
  cbn. rewrite (IH y L). reflexivity.
Qed.
Lemma samples_xy p : prof_ok p -> combine (px p) (yv p) = map (fun t => (sx t, sy t)) (samples p).
Proof.
  intros (L1 & L2 & _ & E). rewrite E. unfold samples, zip3. rewrite E. generalize (pm p), (py p), (px p), L1, L2. clear.
  intros m y x. revert m y. induction x as [|a x IH]; intros [|c m] [|b y] L1 L2; try discriminate; [reflexivity|].
  cbn in L1, L2. injection L1 as L1. injection L2 as L2. cbn [combine map]. f_equal. exact (IH m y L1 L2).
Qed.
Lemma combine_map_r {A B C} (f : B -> C) (a : list A) (b : list B) : combine a (map f b) = map (fun z => (fst z, f (snd z))) (combine a b).
Proof. revert b. induction a as [|x a IH]; intros [|y b]; [reflexivity..|]. cbn. rewrite IH. reflexivity. Qed.
Lemma isnan_scale k y : isnan (oscale k y) = isnan y. Proof. destruct y; reflexivity. Qed.
Lemma times_ok p k u : prof_ok p -> exists q, prof_times p k u = Ok q /\ prof_ok q /\ px q = px p /\ pux q = pux p /\ puy q = u /\
  samples q = map (fun t => (sx t, oscale k (sy t), isnan (sy t))) (samples p).
Proof.
  intros OK. pose proof OK as (L1 & L2 & S & E). unfold prof_times.
  destruct (new_lemma (px p) (map (oscale k) (yv p)) None (pux p) u) as (q & Eq & OKq & U1 & U2 & _ & H); [rewrite map_length, E; symmetry; exact L1|exact I|].
  exists q. split; [exact Eq|]. split; [exact OKq|]. destruct (H S) as [P1 P2]. split; [exact P1|]. split; [exact U1|]. split; [exact U2|].
  rewrite P2, zip3_repeat by (rewrite map_length, E; exact L1). rewrite combine_map_r, (samples_xy p OK), !map_map. apply map_ext. intros t.
  unfold smask, sy, sx. cbn. rewrite isnan_scale. reflexivity.
Qed.
Lemma wall_simple_ok visc p h rho nu : prof_ok p -> prof_clean p -> 2 <= length (px p) -> (0 < h)%num -> spaced (px p) h -> (0 < nu)%num ->
  exists g q, get_gradient p = Ok g /\ wall_shear visc p Simple rho nu = Ok q /\ prof_ok q /\ px q = px p /\ pux q = pux p /\
    puy q = unit_mul (unit_div (puy p) (pux p)) visc /\
    samples q = map (fun t => (sx t, oscale (rho * nu)%num (sy t), isnan (sy t))) (samples g).
Proof.
  intros OK C L H S N. destruct (gradient_lemma p h OK C L H S) as (g & Eg & OKg & Xg & Ug & Wg & _). exists g.
  destruct (times_ok g nu (puy g) OKg) as (a & Ea & OKa & Xa & Ua & Wa & Sa).
  destruct (times_ok a rho (puy a) OKa) as (b & Eb & OKb & Xb & Ub & Wb & Sb).
  destruct (times_ok b 1%num (unit_mul (puy b) visc) OKb) as (q & Eq & OKq & Xq & Uq & Wq & Sq). exists q. split; [exact Eg|].
  split. { unfold wall_shear. assert (qleb nu 0%num = false) as -> by (destruct (qleb nu 0%num) eqn:Z; [apply qleb_le in Z; exfalso; qlra|reflexivity]).
    cbn [guard]. rewrite Eg. cbn [bind]. rewrite Ea. cbn [bind]. rewrite Eb. cbn [bind]. exact Eq. }
  split; [exact OKq|]. split; [congruence|]. split; [congruence|]. split; [congruence|].
  rewrite Sq, Sb, Sa, !map_map. apply map_ext. intros t. unfold sx, sy. cbn. destruct (snd (fst t)) as [y|]; [|reflexivity]. cbn.
  assert (Hy : (y * nu * rho * 1)%num = (y * (rho * nu))%num) by qring. rewrite Hy. reflexivity.
Qed.
Lemma wall_simple_line visc p h rho nu a b : prof_ok p -> 2 <= length (px p) -> (0 < h)%num -> spaced (px p) h -> (0 < nu)%num ->
  (forall t, In t (samples p) -> smask t = false /\ sy t = Some (a * sx t + b)%num) ->
  exists q, wall_shear visc p Simple rho nu = Ok q /\ px q = px p /\ forall t, In t (samples q) -> smask t = false /\ sy t = Some (rho * nu * a)%num.
Proof.
  intros OK L H S N F. assert (C : prof_clean p) by (intros t Ht; destruct (F t Ht) as [A B]; now rewrite A, B).
  destruct (gradient_line p h a b OK L H S F) as (g & Eg & _ & G).
  destruct (wall_simple_ok visc p h rho nu OK C L H S N) as (g' & q & Eg' & Eq & _ & Xq & _ & _ & Sq). assert (g' = g) as -> by congruence.
  exists q. split; [exact Eq|]. split; [exact Xq|]. intros t Ht. rewrite Sq in Ht. apply in_map_iff in Ht. destruct Ht as (t0 & <- & Ht).
  destruct (G t0 Ht) as [_ Y]. unfold smask, sy in *. cbn. rewrite Y. cbn. split; [reflexivity|f_equal; qring].
Qed.
Lemma keep_zip3 (x : list num) y m : length y = length x -> length m = length x ->
  zip3 (keep (map (fun x => qltb 0%num x) x) x) (keep (map (fun x => qltb 0%num x) x) y) (keep (map (fun x => qltb 0%num x) x) m) = filter (fun t => qltb 0%num (sx t)) (zip3 x y m).
Proof.
  unfold zip3. revert y m. induction x as [|a x IH]; intros [|b y] [|c m] L1 L2; try discriminate; [reflexivity|].
  cbn in L1, L2. injection L1 as L1. injection L2 as L2. specialize (IH y m L1 L2). cbn. unfold sx at 1. cbn. destruct (qltb 0%num a); [|exact IH]. cbn. rewrite IH. reflexivity.
Qed.
Lemma keep_len {A B} (b : list bool) (l : list A) (r : list B) : length l = length b -> length r = length b -> length (keep b l) = length (keep b r).
Proof. revert l r. induction b as [|c b IH]; intros [|x l] [|y r] L1 L2; try discriminate; [reflexivity|]. cbn in *. destruct c; cbn; rewrite (IH l r); try lia; reflexivity. Qed.
Lemma zip3_map (f : num * onum -> onum) x y m :
  zip3 x (map f (combine x y)) m = map (fun t => (sx t, f (sx t, sy t), smask t)) (zip3 x y m).
Proof. unfold zip3. revert y m. induction x as [|a x IH]; intros [|b y] [|c m]; try reflexivity. cbn. rewrite IH. reflexivity. Qed.
Lemma wall_lin_ok visc p rho nu : prof_ok p -> prof_clean p -> (0 < nu)%num ->
  exists q, wall_shear visc p WallLin rho nu = Ok q /\ prof_ok q /\ pux q = pux p /\ puy q = unit_mul (unit_div (puy p) (pux p)) visc /\
    samples q = map (linear_stress rho nu) (filter (fun t => qltb 0%num (sx t)) (samples p)).
Proof.
  intros OK C N. pose proof OK as (L1 & L2 & S & E). unfold wall_shear.
  assert (qleb nu 0%num = false) as -> by (destruct (qleb nu 0%num) eqn:Z; [apply qleb_le in Z; exfalso; qlra|reflexivity]).
  unfold aligned. rewrite L1, L2, Nat.eqb_refl. cbn [guard negb]. rewrite E.
  set (pos := map (fun x => qltb 0%num x) (px p)). assert (LP : length pos = length (px p)) by apply map_length.
  assert (K1 : length (keep pos (py p)) = length (keep pos (px p))) by (apply keep_len; congruence).
  assert (K2 : length (keep pos (pm p)) = length (keep pos (px p))) by (apply keep_len; congruence).
  set (y := map _ (combine _ _)).
  assert (Ly : length y = length (keep pos (px p))) by (unfold y; rewrite map_length, combine_length, K1, Nat.min_id; reflexivity).
  destruct (new_lemma (keep pos (px p)) y (Some (keep pos (pm p))) (pux p) (unit_mul (unit_div (puy p) (pux p)) visc)) as (q & Eq & OKq & U1 & U2 & _ & H);
    [symmetry; exact Ly|exact K2|].
  exists q. split; [exact Eq|]. split; [exact OKq|]. split; [exact U1|]. split; [exact U2|].
  destruct (H (nondecreasing_keep _ _ S)) as [_ P2]. rewrite P2. unfold y. rewrite zip3_map. unfold pos. rewrite keep_zip3 by assumption. rewrite map_map.
  assert (Z : zip3 (px p) (py p) (pm p) = samples p) by (unfold samples; rewrite E; reflexivity). rewrite Z.
  apply map_ext_in. intros t Ht. apply filter_In in Ht. destruct Ht as [Ht Hp]. apply qltb_lt in Hp. specialize (C t Ht).
  unfold linear_stress, sx, sy, smask in *. cbn. destruct t as [[tx ty] tm]. cbn in *. assert (ZZ : qeqb tx 0%num = false) by (apply qeqb_neq; intro Z0; subst tx; revert Hp; clear; intro; qlra).
  destruct tm; destruct ty as [ty|]; cbn in *; try rewrite ZZ; cbn; try rewrite ZZ; cbn; try discriminate C; try reflexivity.
  assert (Hy : (ty / tx * nu * rho)%num = (rho * (nu * (ty / tx)))%num) by qring. rewrite Hy. reflexivity.
Qed.
Lemma wall_refused visc p m rho nu : (nu <= 0)%num -> wall_shear visc p m rho nu = Err ValueErr.
Proof. intros N. unfold wall_shear. apply qleb_le in N. rewrite N. reflexivity. Qed.
