(** * VortexProofs2: the properties of systems of vortices. *)
From Coq Require Import Reals Lra List ZArith Lia Permutation.
From Verif Require Import Res VortexModel VortexSpec VortexProofs.
From Verif Require PointsModel PointsSpec PointsProofs2.
Import ListNotations.
#[local] Open Scope R_scope.

(** ** the ids *)
Lemma ids_contiguous : forall h i v, nth_error (vorts (reached h)) i = Some v -> vid v = Z.of_nat i.
Proof. intros h i v N. apply (nth_zseq (vorts (reached h))); [apply (reached_good h)|exact N]. Qed.
Lemma counter_length : forall h, curr_id (reached h) = Z.of_nat (length (vorts (reached h))).
Proof. intros h. apply (reached_good h). Qed.
Lemma counter_refuted : exists h, nmb_vortex (reached h) <> Z.of_nat (length (vorts (reached h))).
Proof. exists [VAdd (new_solid 0 0 1 true); VRemove 0]. cbn. discriminate. Qed.
Lemma nmb_step_add : forall s o, nmb_vortex (vstep s o) = (nmb_vortex s + match o with VAdd _ => 1 | _ => 0 end)%Z.
Proof.
  intros s o. destruct o as [v|i|w|f|x y a b|dt]; cbn [vstep]; try (cbn; lia).
  - unfold s_remove. cbv zeta. destruct (PointsModel.norm_ind _ _); [|cbn; lia]. destruct (nth_error _ _); cbn; lia.
  - rewrite s_vector_form. cbn [snd]. unfold s_fresh. destruct (to_refresh s); cbn; lia.
  - unfold s_evolve. destruct (Rle_dec dt 0); cbn; lia.
Qed.
Lemma vstep_length : forall s o, is_remove o = false ->
  length (vorts (vstep s o)) = (length (vorts s) + match o with VAdd _ => 1 | _ => 0 end)%nat.
Proof.
  intros s o R0. destruct o as [v|i|w|f|x y a b|dt]; cbn [vstep]; try discriminate; try (cbn; lia).
  - cbn. rewrite app_length. reflexivity.
  - rewrite s_vector_form. cbn [snd]. unfold s_fresh. destruct (to_refresh s); cbn; lia.
  - unfold s_evolve. destruct (Rle_dec dt 0); cbn; [lia|]. rewrite map_length. lia.
Qed.
Lemma counter_without_removal : forall h, existsb is_remove h = false ->
  nmb_vortex (reached h) = Z.of_nat (length (vorts (reached h))).
Proof.
  intros h. unfold reached.
  assert (B : nmb_vortex s_new = Z.of_nat (length (vorts s_new))) by reflexivity. revert B. generalize s_new.
  induction h as [|o h IH]; intros s B E; [exact B|].
  cbn in E. apply Bool.orb_false_iff in E. destruct E as [E1 E2]. cbn. apply IH; [|exact E2].
  rewrite nmb_step_add, (vstep_length s o E1), B. destruct o; lia.
Qed.

Lemma drop_id_body : forall l a k, map vid l = map Z.of_nat (seq a (length l)) -> (k < length l)%nat ->
  map body (drop_id (Z.of_nat (a + k)) l) = firstn k (map body l) ++ skipn (S k) (map body l).
Proof.
  induction l as [|v l IH]; intros a k E H; [cbn in H; lia|].
  cbn [map length seq] in E. injection E as E0 E1. unfold drop_id in *. cbn [flat_map].
  destruct k as [|k].
  - rewrite E0, Nat.add_0_r, Z.eqb_refl. cbn [app firstn skipn map].
    assert (L : forall b m, (a < b)%nat -> map vid m = map Z.of_nat (seq b (length m)) ->
      map body (flat_map (fun v0 => if (vid v0 =? Z.of_nat a)%Z then [] else if (Z.of_nat a <? vid v0)%Z then [set_vid v0 (vid v0 - 1)] else [v0]) m) = map body m).
    { clear. intros b m. revert b. induction m as [|u m IH]; intros b H E; [reflexivity|].
      cbn [map length seq] in E. injection E as E0 E1. cbn [flat_map]. rewrite map_app, (IH (S b)) by (try lia; exact E1).
      destruct (Z.eqb_spec (vid u) (Z.of_nat a)); [lia|]. destruct (Z.ltb_spec (Z.of_nat a) (vid u)); [|lia]. reflexivity. }
    apply (L (S a)); [lia|exact E1].
  - rewrite map_app. cbn [length] in H. replace (a + S k)%nat with (S a + k)%nat by lia. rewrite (IH (S a) k E1) by lia.
    destruct (Z.eqb_spec (vid v) (Z.of_nat (S a + k))); [lia|]. destruct (Z.ltb_spec (Z.of_nat (S a + k)) (vid v)); [lia|].
    reflexivity.
Qed.
Lemma removed_lemma : forall h i k,
  let s := reached h in
  PointsSpec.designates (length (vorts s)) i k ->
  snd (s_remove s i) = None /\
  map body (vorts (fst (s_remove s i))) = firstn k (map body (vorts s)) ++ skipn (S k) (map body (vorts s)) /\
  walls (fst (s_remove s i)) = walls s /\ cfields (fst (s_remove s i)) = cfields s.
Proof.
  intros h i k s D. pose proof (reached_good h) as (A & _). fold s in A. unfold s_remove. cbv zeta.
  assert (N : PointsModel.norm_ind (length (vorts s)) (if (i <? 0)%Z then (Z.of_nat (length (vorts s)) + i)%Z else i) = Some k).
  { apply PointsProofs2.norm_ind_spec. unfold PointsSpec.designates in *. destruct (Z.ltb_spec i 0); lia. }
  rewrite N. destruct (nth_error (vorts s) k) as [v|] eqn:E.
  - cbn [fst snd vorts walls cfields]. split; [reflexivity|]. split; [|split; reflexivity].
    rewrite (nth_zseq _ _ _ A E). apply (drop_id_body (vorts s) 0 k); [exact A|apply D].
  - apply nth_error_None in E. destruct D. lia.
Qed.
Lemma remove_error : forall h i, (i >= Z.of_nat (length (vorts (reached h))) \/ i < - 2 * Z.of_nat (length (vorts (reached h))))%Z ->
  s_remove (reached h) i = (reached h, Some IndexErr).
Proof.
  intros h i H. unfold s_remove. cbv zeta.
  assert (N : forall j, ~ PointsSpec.index_ok (length (vorts (reached h))) j -> PointsModel.norm_ind (length (vorts (reached h))) j = None) by (intros; apply PointsProofs2.norm_ind_none; assumption).
  rewrite N; [reflexivity|]. unfold PointsSpec.index_ok. destruct (Z.ltb_spec i 0); lia.
Qed.
Lemma negative_index_refuted : exists h i,
  let s := reached h in (i < - Z.of_nat (length (vorts s)))%Z /\
  snd (s_remove s i) = None /\ length (vorts (fst (s_remove s i))) <> length (vorts s).
Proof. exists [VAdd (new_solid 0 0 1 true)], (-2)%Z. cbn. repeat split; try lia. Qed.

(** ** the walls *)
Lemma symmetric_sum : forall w (l : list vortex) (f : vortex -> R -> R -> R * R),
  (forall v, In v l -> symmetric w (f v)) -> symmetric w (fun x y => vsum (map (fun v => f v x y) l)).
Proof.
  intros w l f H x y. rewrite mirror_vec_sum, map_map. f_equal. apply map_ext_in. intros v Hv. apply (H v Hv).
Qed.
Lemma symmetric_normal : forall w f x y, symmetric w f -> on_wall w (x, y) -> normal w (f x y) = 0.
Proof.
  intros w f x y S O. pose proof (S x y) as E. rewrite (mirror_on w _ O) in E. cbn [fst snd] in E.
  destruct (f x y) as [u v]. destruct w; unfold mirror_vec in E; cbn in *; injection E; intros; lra.
Qed.
Lemma normal_plus : forall w p q, normal w (vplus p q) = normal w p + normal w q.
Proof. intros [a|a] p q; reflexivity. Qed.
Lemma normal_sum0 : forall w l, Forall (fun p => normal w p = 0) l -> normal w (vsum l) = 0.
Proof. intros w l F. induction F as [|p l E F IH]; [destruct w; reflexivity|]. cbn. rewrite normal_plus, E, IH. ring. Qed.
Lemma forall_filter : forall (A : Type) (P : A -> Prop) f (l : list A), Forall P l -> Forall P (filter f l).
Proof. intros A P f l F. induction F; cbn; [constructor|]. destruct (f x); [constructor|]; assumption. Qed.

Lemma no_penetration : forall h ws1 w ws2 x y a b,
  let s := reached h in
  walls s = ws1 ++ w :: ws2 -> Forall (perpendicular w) ws2 ->
  Forall (fun v => axisymmetric (kind v)) (vorts s) ->
  on_wall w (x, y) -> Forall (fun c => normal w (fst c x y) = 0) (cfields s) ->
  normal w (fst (s_vector s x y a b)) = 0.
Proof.
  intros h ws1 w ws2 x y a b s W P A O C. rewrite (good_vector_sel s x y a b (reached_good h)), normal_plus.
  rewrite (symmetric_normal w (fun x y => vsum (map (fun v => induced (walls s) v x y) (pickv (sel_ids a (curr_id s)) (vorts s)))) x y).
  - rewrite normal_sum0; [ring|]. rewrite Forall_map. apply forall_filter, C.
  - apply symmetric_sum. intros v Hv. rewrite W. apply induced_symmetric; [|exact P].
    unfold pickv in Hv. apply filter_In in Hv. rewrite Forall_forall in A. apply A, Hv.
  - exact O.
Qed.
Lemma mirror_field : forall h ws1 w ws2 x y a,
  let s := reached h in
  walls s = ws1 ++ w :: ws2 -> Forall (perpendicular w) ws2 ->
  Forall (fun v => axisymmetric (kind v)) (vorts s) ->
  fst (s_vector s (fst (mirror_pt w (x, y))) (snd (mirror_pt w (x, y))) a INone) = mirror_vec w (fst (s_vector s x y a INone)).
Proof.
  intros h ws1 w ws2 x y a s W P A. rewrite !(good_vector_sel s _ _ a INone (reached_good h)).
  assert (Z0 : filter (fun c : (R -> R -> R * R) * Z => mem (snd c) (sel_ids INone (curr_cf s))) (cfields s) = []) by (induction (cfields s); [reflexivity|assumption]).
  rewrite Z0. cbn [map vsum]. rewrite !vplus_0_r.
  apply (symmetric_sum w (pickv (sel_ids a (curr_id s)) (vorts s)) (induced (walls s))).
  intros v Hv. rewrite W. apply induced_symmetric; [|exact P].
  unfold pickv in Hv. apply filter_In in Hv. rewrite Forall_forall in A. apply A, Hv.
Qed.

(** ** closed forms *)
Lemma sign_abs : forall a, Rabs a * IZR (sign_dir a) = a.
Proof.
  intros a. unfold sign_dir. destruct (Rlt_dec a 0) as [H|H].
  - rewrite (Rabs_left a H). lra.
  - rewrite Rabs_right by lra. lra.
Qed.
Lemma PI0 : PI <> 0.
Proof. pose proof PI_RGT_0; lra. Qed.
Lemma dist_r : forall x0 y0 x y, dist x0 y0 x y = get_r x0 x y0 y.
Proof. reflexivity. Qed.
Lemma dist0 : forall x0 y0 x y, dist x0 y0 x y = 0 <-> x = x0 /\ y = y0.
Proof.
  intros. unfold dist. split.
  - intros E. apply sqrt_eq_0 in E; [|apply sqr_sum_ge]. apply sqr_sum0 in E. lra.
  - intros [-> ->]. replace ((x0 - x0) * (x0 - x0) + (y0 - y0) * (y0 - y0)) with 0 by ring. apply sqrt_0.
Qed.
Lemma form_radial : forall v x y, axisymmetric (kind v) ->
  let r := dist (vx0 v) (vy0 v) x y in
  radial (vx0 v) (vy0 v) x y (v_vector v x y) = hfun (kind v) (IZR (rot v)) r * (r * r) /\
  swirl (vx0 v) (vy0 v) x y (v_vector v x y) = gfun (kind v) r * IZR (rot v) * (r * r).
Proof.
  intros v x y A r. rewrite (v_vector_form v x y A). cbv zeta. fold (dist (vx0 v) (vy0 v) x y). fold r.
  assert (E : r * r = (x - vx0 v) * (x - vx0 v) + (y - vy0 v) * (y - vy0 v)) by (apply (get_r_sq (vx0 v) x (vy0 v) y)).
  unfold radial, swirl. cbn [fst snd]. set (h := hfun _ _ _) in *. set (g := gfun _ _) in *. clearbody h g. rewrite E. split; ring.
Qed.

Lemma free_form : forall v g x y, kind v = Free g -> (x <> vx0 v \/ y <> vy0 v) ->
  let r2 := (x - vx0 v) * (x - vx0 v) + (y - vy0 v) * (y - vy0 v) in
  v_vector v x y = (- (g * IZR (rot v) / (2 * PI * r2)) * (y - vy0 v), g * IZR (rot v) / (2 * PI * r2) * (x - vx0 v)).
Proof.
  intros v g x y K N r2. rewrite (v_vector_form v x y) by (rewrite K; exact I). cbv zeta.
  rewrite K. cbn [hfun gfun].
  pose proof (get_r_sq (vx0 v) x (vy0 v) y) as E. fold r2 in E. set (r := get_r _ _ _ _) in *.
  destruct (Req_EM_T r 0) as [Z0|Z0].
  - exfalso. apply (proj1 (dist0 (vx0 v) (vy0 v) x y)) in Z0. tauto.
  - rewrite <- E. pose proof PI0. f_equal; field; tauto.
Qed.
Lemma free_centre : forall v g, kind v = Free g -> v_vector v (vx0 v) (vy0 v) = (0, 0).
Proof.
  intros v g K. rewrite (v_vector_form v) by (rewrite K; exact I). cbv zeta. rewrite K. cbn [hfun].
  f_equal; ring.
Qed.

Lemma solid_law : forall x0 y0 omega m x y,
  v_vector (new_solid x0 y0 omega m) x y = (- omega * (y - y0), omega * (x - x0)).
Proof.
  intros. rewrite v_vector_form by exact I. cbv zeta. cbn [kind new_solid hfun gfun rot vx0 vy0].
  rewrite sign_abs. f_equal; ring.
Qed.
Lemma free_law : forall x0 y0 gamma m x y, (x <> x0 \/ y <> y0) ->
  let V := v_vector (new_free x0 y0 gamma m) x y in
  radial x0 y0 x y V = 0 /\ swirl x0 y0 x y V = gamma / (2 * PI).
Proof.
  intros x0 y0 gamma m x y N V.
  destruct (form_radial (new_free x0 y0 gamma m) x y I) as [A B]. cbn [vx0 vy0 kind rot new_free hfun gfun] in A, B.
  fold V in A, B. rewrite A, B. split; [ring|]. destruct (Req_EM_T _ 0) as [Z0|Z0].
  - exfalso. apply dist0 in Z0. tauto.
  - rewrite <- (sign_abs gamma) at 3. field. repeat split; (exact PI0 || exact Z0).
Qed.
Lemma rankine_law : forall x0 y0 circ rv m x y, 0 < rv ->
  let V := v_vector (new_rankine x0 y0 circ rv m) x y in
  let r := dist x0 y0 x y in
  radial x0 y0 x y V = 0 /\
  (r <= rv -> swirl x0 y0 x y V = circ / (2 * PI) * (r * r / (rv * rv))) /\
  (rv <= r -> swirl x0 y0 x y V = circ / (2 * PI)).
Proof.
  intros x0 y0 circ rv m x y P V r.
  assert (AX : axisymmetric (kind (new_rankine x0 y0 circ rv m))) by (cbn; lra).
  destruct (form_radial (new_rankine x0 y0 circ rv m) x y AX) as [A B]. cbn [vx0 vy0 kind rot new_rankine hfun gfun] in A, B.
  fold V in A, B. fold r in A, B. rewrite A, B. split; [ring|]. pose proof PI0 as HPI.
  split; intros H; destruct (Rle_dec r rv) as [L|L]; try lra.
  - rewrite <- (sign_abs circ) at 3. field. repeat split; (assumption || lra).
  - assert (E : r = rv) by lra. rewrite <- (sign_abs circ) at 3. rewrite E. field. repeat split; (assumption || lra).
  - rewrite <- (sign_abs circ) at 3. field. repeat split; (assumption || lra).
Qed.
Lemma oseen_law : forall x0 y0 ksi t nu m x y,
  let V := v_vector (new_oseen x0 y0 ksi t nu m) x y in
  let r := dist x0 y0 x y in
  radial x0 y0 x y V = 0 /\ swirl x0 y0 x y V = ksi / (2 * PI) * (1 - exp (- (r * r) / (4 * nu * t))).
Proof.
  intros x0 y0 ksi t nu m x y V r.
  destruct (form_radial (new_oseen x0 y0 ksi t nu m) x y I) as [A B]. cbn [vx0 vy0 kind rot new_oseen hfun gfun] in A, B.
  fold V in A, B. fold r in A, B. rewrite A, B. split; [ring|]. destruct (Req_EM_T r 0) as [Z0|Z0].
  - rewrite Z0. replace (- (0 * 0) / (4 * nu * t)) with 0 by (unfold Rdiv; ring). rewrite exp_0. ring.
  - set (e := 1 - exp _). clearbody e. rewrite <- (sign_abs ksi) at 3. field. repeat split; (exact PI0 || exact Z0).
Qed.
Lemma burger_law : forall x0 y0 alpha ksi nu m x y,
  let V := v_vector (new_burger x0 y0 alpha ksi nu m) x y in
  let r := dist x0 y0 x y in
  radial x0 y0 x y V = - alpha / 2 * (r * r) /\ swirl x0 y0 x y V = ksi / (2 * PI) * (1 - exp (- alpha * (r * r) / (4 * nu))).
Proof.
  intros x0 y0 alpha ksi nu m x y V r.
  destruct (form_radial (new_burger x0 y0 alpha ksi nu m) x y I) as [A B]. cbn [vx0 vy0 kind rot new_burger hfun gfun] in A, B.
  fold V in A, B. fold r in A, B. rewrite A, B. split; [field|]. destruct (Req_EM_T r 0) as [Z0|Z0].
  - rewrite Z0. replace (- alpha * (0 * 0) / (4 * nu)) with 0 by (unfold Rdiv; ring). rewrite exp_0. ring.
  - replace (- alpha * (r * r) / (4 * nu)) with (- alpha / (4 * nu) * (r * r)) by (unfold Rdiv; ring).
    set (e := 1 - exp _). clearbody e. rewrite <- (sign_abs ksi) at 3. field. repeat split; (exact PI0 || exact Z0).
Qed.

(** the speed from the radial and azimuthal parts *)
Lemma speed_form : forall x0 y0 x y V,
  let r := dist x0 y0 x y in
  (speed V * r) * (speed V * r) = radial x0 y0 x y V * radial x0 y0 x y V + swirl x0 y0 x y V * swirl x0 y0 x y V.
Proof.
  intros x0 y0 x y V r. assert (E : r * r = (x - x0) * (x - x0) + (y - y0) * (y - y0)) by (apply (get_r_sq x0 x y0 y)).
  assert (F : speed V * speed V = fst V * fst V + snd V * snd V) by (apply sqrt_sqrt, sqr_sum_ge).
  replace (speed V * r * (speed V * r)) with ((speed V * speed V) * (r * r)) by ring. rewrite E, F. unfold radial, swirl. ring.
Qed.
Lemma sq_eq_pos : forall a b, 0 <= a -> 0 <= b -> a * a = b * b -> a = b.
Proof. intros a b A B E. apply Rsqr_inj; [exact A|exact B|exact E]. Qed.
Lemma speed_swirl : forall x0 y0 x y V, radial x0 y0 x y V = 0 -> speed V * dist x0 y0 x y = Rabs (swirl x0 y0 x y V).
Proof.
  intros x0 y0 x y V R0. apply sq_eq_pos.
  - apply Rmult_le_pos; apply sqrt_pos.
  - apply Rabs_pos.
  - rewrite speed_form, R0, <- Rabs_mult, Rabs_pos_eq; [ring|]. apply Rle_0_sqr.
Qed.
Lemma rankine_peak : forall x0 y0 circ rv m x y, 0 < rv ->
  let V := v_vector (new_rankine x0 y0 circ rv m) x y in
  speed V <= Rabs circ / (2 * PI * rv) /\ (dist x0 y0 x y = rv -> speed V = Rabs circ / (2 * PI * rv)).
Proof.
  intros x0 y0 circ rv m x y P V. destruct (rankine_law x0 y0 circ rv m x y P) as (A & B & C). cbv zeta in *. fold V in A, B, C.
  pose proof PI_RGT_0 as HP. set (r := dist x0 y0 x y) in *.
  assert (R0 : 0 <= r) by (apply sqrt_pos).
  pose proof (speed_swirl x0 y0 x y V A) as S. fold r in S.
  set (q := Rabs circ / (2 * PI * rv)).
  assert (Q : 0 <= q). { unfold q, Rdiv. apply Rmult_le_pos; [apply Rabs_pos|]. left. apply Rinv_0_lt_compat. nra. }
  assert (AC : Rabs (circ / (2 * PI)) = q * rv).
  { unfold q. unfold Rdiv at 1. rewrite Rabs_mult, (Rabs_pos_eq (/ (2 * PI))); [field; lra|]. left. apply Rinv_0_lt_compat. lra. }
  assert (SP : 0 <= speed V) by (apply sqrt_pos).
  destruct (Req_EM_T r 0) as [Z0|Z0].
  - assert (V0 : V = (0, 0)).
    { unfold V. rewrite v_vector_form by (cbn; lra). cbv zeta. apply dist0 in Z0. destruct Z0 as [-> ->]. cbn [vx0 vy0 new_rankine kind hfun].
      f_equal; ring. }
    split; [|lra]. rewrite V0. unfold speed; cbn. replace (0 * 0 + 0 * 0) with 0 by ring. rewrite sqrt_0. exact Q.
  - destruct (Rle_dec r rv) as [L|L].
    + rewrite (B L), Rabs_mult, AC, (Rabs_pos_eq (r * r / (rv * rv))) in S.
      2:{ unfold Rdiv. apply Rmult_le_pos; [nra|]. left. apply Rinv_0_lt_compat. nra. }
      assert (E : speed V = q * (r / rv)).
      { apply (Rmult_eq_reg_r r); [|exact Z0]. rewrite S. field. lra. }
      rewrite E. split.
      * assert (r / rv <= 1) by (apply (Rmult_le_reg_r rv); [lra|]; unfold Rdiv; rewrite Rmult_assoc, Rinv_l by lra; lra). nra.
      * intros ->. field. lra.
    + rewrite (C ltac:(lra)), AC in S. split; [|lra]. apply (Rmult_le_reg_r r); [lra|]. rewrite S. nra.
Qed.
Lemma oseen_below_free : forall x0 y0 ksi t nu m x y, 0 < nu * t ->
  Rabs (swirl x0 y0 x y (v_vector (new_oseen x0 y0 ksi t nu m) x y)) <= Rabs (ksi / (2 * PI)).
Proof.
  intros x0 y0 ksi t nu m x y P. destruct (oseen_law x0 y0 ksi t nu m x y) as [_ B]. cbv zeta in B. rewrite B, Rabs_mult.
  set (r := dist x0 y0 x y).
  assert (E : 0 <= 1 - exp (- (r * r) / (4 * nu * t)) <= 1).
  { pose proof (exp_pos (- (r * r) / (4 * nu * t))). split; [|lra].
    assert (L : - (r * r) / (4 * nu * t) <= 0).
    { unfold Rdiv. assert (0 <= r * r * / (4 * nu * t)); [|lra]. apply Rmult_le_pos; [apply Rle_0_sqr|]. left. apply Rinv_0_lt_compat. lra. }
    destruct (Req_dec (- (r * r) / (4 * nu * t)) 0) as [->|N]; [rewrite exp_0; lra|].
    pose proof (exp_increasing _ 0 (Rlt_le_trans _ _ _ (Rle_lt_trans _ _ 0 (Rle_refl _) (ltac:(lra) : - (r * r) / (4 * nu * t) < 0)) (Rle_refl 0))) as X.
    rewrite exp_0 in X. lra. }
  rewrite (Rabs_pos_eq (1 - _)) by lra. pose proof (Rabs_pos (ksi / (2 * PI))). nra.
Qed.
