(** * PropGrad: filling, gradients and the criteria that need no square root (C63, C64, C100, C101, C102, C104, C106).
    Statements, examples and counterexamples; the proofs are in GradProofs*.v, the vocabulary in GradSpec and FieldSpec.
    [evenly l h]: the axis l has the constant step h.  [sf_is f G]: f shows G x y at every position, nothing masked. *)
From Verif Require Import Num Res ListLib SortLib Arr FieldModel ScalarFieldModel VectorFieldModel ProfileModel PointsModel FieldSpec FieldProofs FieldProofs2
  ProfileSpec ProfileProofs GradModel GradSpec GradProofs GradProofs2 GradProofs3 GradProofs4 GradProofs5 GradProofs6 Concrete TemporalEx.

(** ** C63: gradients *)
Theorem C63_linear f hx hy a b c :
  sf_wf f -> evenly (ax (sg f)) hx -> evenly (ay (sg f)) hy ->
  sf_is f (fun x y => a + b * x + c * y)%num ->
  exists gx gy, sf_gradients f = Ok (gx, gy) /\
    on_grid (sg f) gx (unit_div (uv f) (ux (sg f))) /\ on_grid (sg f) gy (unit_div (uv f) (uy (sg f))) /\
    sf_is gx (fun _ _ => b) /\ sf_is gy (fun _ _ => c).
Proof. exact (sf_gradients_linear f hx hy a b c). Qed.
Print Assumptions C63_linear.

Theorem C63_vector_linear f hx hy a0 a1 a2 b0 b1 b2 :
  vf_wf f -> evenly (ax (vg f)) hx -> evenly (ay (vg f)) hy ->
  vf_is f (fun x y => a0 + a1 * x + a2 * y)%num (fun x y => b0 + b1 * x + b2 * y)%num ->
  exists g1 g2 g3 g4, vf_gradients f = Ok (g1, g2, g3, g4) /\
    on_grid (vg f) g1 (unit_div (vuv f) (ux (vg f))) /\ on_grid (vg f) g2 (unit_div (vuv f) (uy (vg f))) /\
    on_grid (vg f) g3 (unit_div (vuv f) (ux (vg f))) /\ on_grid (vg f) g4 (unit_div (vuv f) (uy (vg f))) /\
    sf_is g1 (fun _ _ => a1) /\ sf_is g2 (fun _ _ => a2) /\ sf_is g3 (fun _ _ => b1) /\ sf_is g4 (fun _ _ => b2).
Proof. exact (vf_gradients_linear f hx hy a0 a1 a2 b0 b1 b2). Qed.
Print Assumptions C63_vector_linear.

Theorem C63_quadratic f hx hy a b c d e k :
  sf_wf f -> evenly (ax (sg f)) hx -> evenly (ay (sg f)) hy ->
  sf_is f (fun x y => a + b * x + c * y + d * (x * x) + e * (x * y) + k * (y * y))%num ->
  exists gx gy, sf_gradients f = Ok (gx, gy) /\
    (forall i j, 0 < i -> S i < length (ax (sg f)) -> 0 < j -> S j < length (ay (sg f)) ->
       let x := nths (ax (sg f)) i in let y := nths (ay (sg f)) j in
       at_ (values gx) i j = Some (b + 2 * d * x + e * y)%num /\ at_ (msk gx) i j = false /\
       at_ (values gy) i j = Some (c + e * x + 2 * k * y)%num /\ at_ (msk gy) i j = false).
Proof. exact (sf_gradients_quadratic f hx hy a b c d e k). Qed.
Print Assumptions C63_quadratic.

Theorem C63_value f hx hy :
  sf_wf f -> sf_clean f -> evenly (ax (sg f)) hx -> evenly (ay (sg f)) hy ->
  exists gx gy, sf_gradients f = Ok (gx, gy) /\
    forall i j, i < length (ax (sg f)) -> j < length (ay (sg f)) -> at_ (msk gx) i j = false ->
      (exists p q u v, stencil (length (ax (sg f))) i p /\ stencil (length (ax (sg f))) i q /\ p < q /\
         at_ (values f) p j = Some u /\ at_ (values f) q j = Some v /\
         at_ (values gx) i j = Some ((v - u) / (nths (ax (sg f)) q - nths (ax (sg f)) p))%num) /\
      (exists p q u v, stencil (length (ay (sg f))) j p /\ stencil (length (ay (sg f))) j q /\ p < q /\
         at_ (values f) i p = Some u /\ at_ (values f) i q = Some v /\
         at_ (values gy) i j = Some ((v - u) / (nths (ay (sg f)) q - nths (ay (sg f)) p))%num).
Proof. exact (sf_gradients_value f hx hy). Qed.
Print Assumptions C63_value.

Theorem C63_mask f hx hy :
  sf_wf f -> sf_clean f -> evenly (ax (sg f)) hx -> evenly (ay (sg f)) hy ->
  exists gx gy, sf_gradients f = Ok (gx, gy) /\ sf_clean gx /\ sf_clean gy /\
    forall i j, i < length (ax (sg f)) -> j < length (ay (sg f)) ->
      at_ (msk gx) i j = at_ (msk gy) i j /\
      (at_ (msk gx) i j = true <->
        (exists k, stencil (length (ax (sg f))) i k /\ at_ (msk f) k j = true) \/
        (exists k, stencil (length (ay (sg f))) j k /\ at_ (msk f) i k = true)).
Proof. exact (sf_gradients_mask f hx hy). Qed.
Print Assumptions C63_mask.

Theorem C63_profile_partial p h a b :
  prof_ok p -> evenly (px p) h -> samples p = map (line a b) (px p) ->
  exists q, prof_gradient p = Ok q /\ pux q = pux p /\ puy q = unit_div (puy p) (pux p) /\
    samples q = map (fun x => (x, Some (b * h)%num, false)) (px p).
Proof. exact (prof_gradient_linear p h a b). Qed.
Print Assumptions C63_profile_partial.

(** the gradient of a profile ignores the distance between its points *)
Theorem C63_profile_refuted :
  prof_ok ex_line /\ evenly (px ex_line) 2%num /\ samples ex_line = map (line 0%num 1%num) (px ex_line) /\
  exists q, prof_gradient ex_line = Ok q /\ samples q = map (fun x => (x, Some 2%num, false)) (px ex_line).
Proof. exact prof_gradient_refuted. Qed.
Print Assumptions C63_profile_refuted.

Example C63_example : forall n m, 2 <= n -> 2 <= m ->
  let f := lin_sf n m (qq 1 2) (qz 3) 1 2 (qz 5) in let v := lin_vf n m (qq 1 2) (qz 3) 1 2 (qz 5) 0 (qz 7) 1 in
  (sf_wf f /\ evenly (ax (sg f)) (qq 1 2) /\ evenly (ay (sg f)) (qz 3) /\ sf_is f (fun x y => 1 + 2 * x + qz 5 * y)%num) /\
  (vf_wf v /\ evenly (ax (vg v)) (qq 1 2) /\ evenly (ay (vg v)) (qz 3) /\
   vf_is v (fun x y => 1 + 2 * x + qz 5 * y)%num (fun x y => 0 + qz 7 * x + 1 * y)%num).
Proof. intros n m Hn Hm f v. split; [apply lin_sf_ok|apply lin_vf_ok]; try assumption; reflexivity. Qed.

(** ** C100: filling *)
Theorem C100_scalar nearest linear cubic f kind value :
  sf_wf f -> sf_clean f -> grid_sorted (sg f) ->
  2 <= length (ax (sg f)) -> 2 <= length (ay (sg f)) -> kind <> FOther ->
  exists f', sf_fill nearest linear cubic f kind value = Ok f' /\ on_grid (sg f) f' (uv f) /\ sf_clean f' /\
    forall i j, i < length (ax (sg f)) -> j < length (ay (sg f)) ->
      (at_ (msk f) i j = false -> at_ (values f') i j = at_ (values f) i j /\ at_ (msk f') i j = false) /\
      (at_ (msk f) i j = true ->
         at_ (values f') i j = replacement (nearest f i j) (linear f i j) (cubic f i j) kind value).
Proof. exact (sf_fill_lemma nearest linear cubic f kind value). Qed.
Print Assumptions C100_scalar.

Theorem C100_complete nearest linear cubic f kind value :
  sf_wf f -> sf_clean f -> grid_sorted (sg f) ->
  2 <= length (ax (sg f)) -> 2 <= length (ay (sg f)) -> kind <> FOther ->
  (forall i j, nearest f i j <> None) ->
  exists f', sf_fill nearest linear cubic f kind value = Ok f' /\ nothing_masked f'.
Proof. exact (sf_fill_total_lemma nearest linear cubic f kind value). Qed.
Print Assumptions C100_complete.

Theorem C100_nearest nearest linear cubic f :
  sf_wf f -> sf_clean f -> grid_sorted (sg f) ->
  2 <= length (ax (sg f)) -> 2 <= length (ay (sg f)) ->
  (forall i j, exists x y v, sf_shows f x y (Some v) false /\ nearest f i j = Some v) ->
  exists f', sf_fill nearest linear cubic f FNearest 0%num = Ok f' /\ nothing_masked f' /\
    forall x y v m, sf_shows f' x y v m -> exists x' y', sf_shows f x' y' v false.
Proof. exact (sf_fill_values_lemma nearest linear cubic f). Qed.
Print Assumptions C100_nearest.

Theorem C100_nothing_to_fill nearest linear cubic f kind value :
  sf_wf f -> sf_clean f -> grid_sorted (sg f) ->
  2 <= length (ax (sg f)) -> 2 <= length (ay (sg f)) -> nothing_masked f ->
  exists f', sf_fill nearest linear cubic f kind value = Ok f' /\ sf_same f' f.
Proof. exact (sf_fill_none_lemma nearest linear cubic f kind value). Qed.
Print Assumptions C100_nothing_to_fill.

Theorem C100_unknown_kind nearest linear cubic f value :
  sf_wf f -> ~ nothing_masked f ->
  sf_fill nearest linear cubic f FOther value = Err ValueErr.
Proof. exact (sf_fill_unknown_lemma nearest linear cubic f value). Qed.
Print Assumptions C100_unknown_kind.

Theorem C100_vector nearest linear cubic f kind vx vy :
  vf_wf f -> vf_clean f -> grid_sorted (vg f) ->
  2 <= length (ax (vg f)) -> 2 <= length (ay (vg f)) -> kind <> FOther ->
  (forall s i j, nearest s i j <> None) ->
  exists sx sy f', comp_x_sf f = Ok sx /\ comp_y_sf f = Ok sy /\
    vf_fill nearest linear cubic f kind vx vy = Ok f' /\ on_vgrid (vg f) (vuv f) f' /\ vf_full f' /\
    forall i j, i < length (ax (vg f)) -> j < length (ay (vg f)) ->
      (at_ (vmsk f) i j = false -> at_ (cx f') i j = at_ (cx f) i j /\ at_ (cy f') i j = at_ (cy f) i j) /\
      (at_ (vmsk f) i j = true ->
         at_ (cx f') i j = replacement (nearest sx i j) (linear sx i j) (cubic sx i j) kind vx /\
         at_ (cy f') i j = replacement (nearest sy i j) (linear sy i j) (cubic sy i j) kind vy).
Proof. exact (vf_fill_lemma nearest linear cubic f kind vx vy). Qed.
Print Assumptions C100_vector.

Theorem C100_vector_nothing_to_fill nearest linear cubic f kind vx vy :
  vf_wf f -> vf_full f -> grid_sorted (vg f) ->
  2 <= length (ax (vg f)) -> 2 <= length (ay (vg f)) ->
  exists f', vf_fill nearest linear cubic f kind vx vy = Ok f' /\ vf_same f' f.
Proof. exact (vf_fill_none_lemma nearest linear cubic f kind vx vy). Qed.
Print Assumptions C100_vector_nothing_to_fill.

Example C100_example : sf_wf ex_sf /\ sf_clean ex_sf /\ grid_sorted (sg ex_sf) /\ ~ nothing_masked ex_sf /\
  vf_wf hole_vf /\ vf_clean hole_vf /\ grid_sorted (vg hole_vf) /\
  at_ (vmsk hole_vf) 3 3 = true.
Proof.
  destruct hole_ok as (W & C & Ex & Ey).
  split; [now vm_compute|]. split.
  { apply sf_clean_idx. intros i j Hi Hj. cbn in Hi, Hj. destruct i as [|[|[|i]]]; try lia; destruct j as [|[|j]]; try lia; cbn; split; intro; (discriminate || reflexivity). }
  split; [split; incr|]. split.
  { intro H. assert (true = false) as K; [|discriminate]. apply (H (qz 1) (qz 10) None true). exists 1, 0. repeat split. }
  split; [exact W|]. split; [exact C|]. split; [exact (evenly_sorted _ _ _ Ex Ey)|reflexivity].
Qed.

(** ** C64, C101: vorticity and divergence *)
Theorem C64_half_partial nearest linear cubic f hx hy a0 a1 a2 b0 b1 b2 :
  vf_wf f -> evenly (ax (vg f)) hx -> evenly (ay (vg f)) hy ->
  vf_is f (fun x y => a0 + a1 * x + a2 * y)%num (fun x y => b0 + b1 * x + b2 * y)%num ->
  exists s, vf_vorticity (default_fill nearest linear cubic) f = Ok s /\ on_grid (vg f) s (unit_div (vuv f) (ux (vg f))) /\
    sf_is s (fun _ _ => (b1 - a2) / 2)%num.
Proof. exact (vorticity_linear_lemma nearest linear cubic f hx hy a0 a1 a2 b0 b1 b2). Qed.
Print Assumptions C64_half_partial.

Theorem C64_stokes_partial f hx hy w a0 a1 a2 b0 b1 b2 :
  vf_wf f -> evenly (ax (vg f)) hx -> evenly (ay (vg f)) hy ->
  vf_is f (fun x y => a0 + a1 * x + a2 * y)%num (fun x y => b0 + b1 * x + b2 * y)%num ->
  2 <= w -> w < length (ax (vg f)) -> w < length (ay (vg f)) ->
  exists s, vf_stokes f w = Ok s /\ sf_is s (fun _ _ => (b1 - a2) * ((qn w - 1) / qn w) * ((qn w - 1) / qn w))%num.
Proof. exact (stokes_linear_lemma f hx hy w a0 a1 a2 b0 b1 b2). Qed.
Print Assumptions C64_stokes_partial.

(** the vorticity of a rotation is its rate, not twice its rate *)
Theorem C64_vorticity_refuted nearest linear cubic n m hx hy w :
  2 <= n -> 2 <= m -> (0 < hx)%num -> (0 < hy)%num -> w <> 0%num ->
  exists f s, vf_is f (fun _ y => - w * y)%num (fun x _ => w * x)%num /\
    vf_vorticity (default_fill nearest linear cubic) f = Ok s /\ sf_is s (fun _ _ => w) /\ ~ sf_is s (fun _ _ => 2 * w)%num.
Proof. exact (vorticity_refuted nearest linear cubic n m hx hy w). Qed.
Print Assumptions C64_vorticity_refuted.

Theorem C64_stokes_refuted :
  exists f s, vf_is f (fun _ y => - y)%num (fun x _ => x)%num /\ vf_stokes f 2 = Ok s /\
  sf_is s (fun _ _ => half) /\ ~ sf_is s (fun _ _ => 2%num).
Proof. exact stokes_refuted. Qed.
Print Assumptions C64_stokes_refuted.

Theorem C101_divergence nearest linear cubic f hx hy a0 a1 a2 b0 b1 b2 :
  vf_wf f -> evenly (ax (vg f)) hx -> evenly (ay (vg f)) hy ->
  vf_is f (fun x y => a0 + a1 * x + a2 * y)%num (fun x y => b0 + b1 * x + b2 * y)%num ->
  exists s, vf_divergence (default_fill nearest linear cubic) f = Ok s /\ on_grid (vg f) s (unit_div (vuv f) (ux (vg f))) /\
    sf_is s (fun _ _ => a1 + b2)%num.
Proof. exact (divergence_linear_lemma nearest linear cubic f hx hy a0 a1 a2 b0 b1 b2). Qed.
Print Assumptions C101_divergence.

Theorem C101_filled nearest linear cubic f hx hy :
  vf_wf f -> vf_clean f -> evenly (ax (vg f)) hx -> evenly (ay (vg f)) hy ->
  (forall s i j, nearest s i j <> None) ->
  exists t s s', default_fill nearest linear cubic f = Ok t /\ vf_full t /\
    vf_vorticity (default_fill nearest linear cubic) f = Ok s /\ vf_vorticity (default_fill nearest linear cubic) t = Ok s' /\
    sf_same s s' /\ nothing_masked s.
Proof. exact (vorticity_filled_lemma nearest linear cubic f hx hy). Qed.
Print Assumptions C101_filled.

Example C64_example : let f := lin_vf 5 6 1 1 0 0 (- (1)) 0 1 0 in
  vf_wf f /\ evenly (ax (vg f)) 1%num /\ evenly (ay (vg f)) 1%num /\
  vf_is f (fun x y => 0 + 0 * x + - (1) * y)%num (fun x y => 0 + 1 * x + 0 * y)%num /\ 3 < length (ax (vg f)).
Proof.
  cbv zeta. destruct (lin_vf_ok 5 6 1 1 0 0 (- (1)) 0 1 0 ltac:(lia) ltac:(lia) eq_refl eq_refl) as (W & Ex & Ey & F).
  repeat (split; [assumption|]). vm_compute. lia.
Qed.
Example C101_example : vf_wf hole_vf /\ vf_clean hole_vf /\ evenly (ax (vg hole_vf)) 1%num /\ evenly (ay (vg hole_vf)) 2%num.
Proof. exact hole_ok. Qed.

(** ** C102: the vorticity by circulation *)
Theorem C102_grid f hx hy w :
  vf_wf f -> vf_clean f -> evenly (ax (vg f)) hx -> evenly (ay (vg f)) hy ->
  0 < w -> w < length (ax (vg f)) -> w < length (ay (vg f)) ->
  exists s, vf_stokes f w = Ok s /\ sf_wf s /\ uv s = unit_div (vuv f) (ux (vg f)) /\
    ux (sg s) = ux (vg f) /\ uy (sg s) = uy (vg f) /\
    length (ax (sg s)) = length (ax (vg f)) + 1 - w /\ length (ay (sg s)) = length (ay (vg f)) + 1 - w /\
    (forall i, i < length (ax (sg s)) -> (2 * nths (ax (sg s)) i)%num = (nths (ax (vg f)) i + nths (ax (vg f)) (i + (w - 1)))%num) /\
    (forall j, j < length (ay (sg s)) -> (2 * nths (ay (sg s)) j)%num = (nths (ay (vg f)) j + nths (ay (vg f)) (j + (w - 1)))%num) /\
    (forall i j, i < length (ax (sg s)) -> j < length (ay (sg s)) ->
       (at_ (msk s) i j = true <-> exists a b, i <= a < i + w /\ j <= b < j + w /\ at_ (vmsk f) a b = true) /\
       (at_ (values s) i j = None <-> at_ (msk s) i j = true)).
Proof. exact (stokes_grid_lemma f hx hy w). Qed.
Print Assumptions C102_grid.

Theorem C102_additive f hx hy w :
  vf_wf f -> vf_clean f -> evenly (ax (vg f)) hx -> evenly (ay (vg f)) hy ->
  2 <= w -> w < length (ax (vg f)) -> w < length (ay (vg f)) ->
  exists s s2, vf_stokes f w = Ok s /\ vf_stokes f 2 = Ok s2 /\
    forall i j v, i < length (ax (sg s)) -> j < length (ay (sg s)) -> at_ (values s) i j = Some v ->
      (forall a b, a < w - 1 -> b < w - 1 -> exists c, at_ (values s2) (i + a) (j + b) = Some c) /\
      forall c : nat -> nat -> num, (forall a b, a < w - 1 -> b < w - 1 -> at_ (values s2) (i + a) (j + b) = Some (c a b)) ->
        (qn w * qn w * v)%num = (qn 4 * sumn (w - 1) (fun a => sumn (w - 1) (c a)))%num.
Proof. exact (stokes_additive_lemma f hx hy w). Qed.
Print Assumptions C102_additive.

Theorem C102_whole f hx hy :
  evenly (ax (vg f)) hx -> evenly (ay (vg f)) hy -> vf_stokes f (length (ay (vg f))) = Err IndexErr.
Proof. exact (stokes_whole_lemma f hx hy). Qed.
Print Assumptions C102_whole.

Example C102_example : vf_wf hole_vf /\ vf_clean hole_vf /\ evenly (ax (vg hole_vf)) 1%num /\ evenly (ay (vg hole_vf)) 2%num /\
  3 < length (ax (vg hole_vf)) /\ exists s, vf_stokes hole_vf 3 = Ok s /\
    (at_ (msk s) 0 0 = false /\ at_ (msk s) 1 1 = true) /\ at_ (values s) 0 0 <> None.
Proof.
  destruct hole_ok as (W & C & Ex & Ey). repeat (split; [assumption|]). split; [cbn; lia|].
  destruct (ok_ex (vf_stokes hole_vf 3) (fun s => (negb (at_ (msk s) 0 0) && at_ (msk s) 1 1 && negb (isnan (at_ (values s) 0 0)))%bool)) as (s & E & H);
    [vm_compute; reflexivity|].
  exists s. split; [exact E|]. apply andb_true_iff in H. destruct H as [H H3]. apply andb_true_iff in H. destruct H as [H1 H2].
  apply negb_true_iff in H1. split; [tauto|]. intro K. rewrite K in H3. discriminate.
Qed.

(** ** C65: the Q criterion *)
Theorem C65_q_partial junk f hx hy a0 a1 a2 b0 b1 b2 :
  vf_wf f -> evenly (ax (vg f)) hx -> evenly (ay (vg f)) hy ->
  vf_is f (fun x y => a0 + a1 * x + a2 * y)%num (fun x y => b0 + b1 * x + b2 * y)%num ->
  exists s, vf_qcrit junk f None = Ok s /\
    on_grid (vg f) s (unit_mul (unit_div (vuv f) (ux (vg f))) (unit_div (vuv f) (ux (vg f)))) /\
    let rot2 := ((a2 - b1) * (a2 - b1) * qq 1 2)%num in
    let shear2 := (a1 * a1 + (a2 + b1) * (a2 + b1) * qq 1 2 + b2 * b2)%num in
    sf_is s (fun _ _ => rot2 * qq 1 2 - shear2)%num.
Proof. exact (qcrit_linear_lemma junk f hx hy a0 a1 a2 b0 b1 b2). Qed.
Print Assumptions C65_q_partial.

Theorem C65_q_sign_partial (a1 a2 b1 b2 : num) :
  (0 < (a2 - b1) * (a2 - b1) * qq 1 2 * qq 1 2 - (a1 * a1 + (a2 + b1) * (a2 + b1) * qq 1 2 + b2 * b2))%num ->
  forall l, ((a1 - l) * (b2 - l) - a2 * b1)%num <> 0%num.
Proof. exact (qcrit_sign a1 a2 b1 b2). Qed.
Print Assumptions C65_q_sign_partial.

Theorem C65_q_refuted junk :
  exists f s, vf_is f (fun _ y => y)%num (fun _ _ => 0%num) /\ vf_qcrit junk f None = Ok s /\
  sf_is s (fun _ _ => - qq 1 4)%num /\
  forall a1 a2 b1 b2 : num, (a1, a2, b1, b2) = (0, 1, 0, 0)%num ->
    ((half * (2 * (half * (a2 - b1)) * (half * (a2 - b1)) - (a1 * a1 + b2 * b2 + 2 * (half * (a2 + b1)) * (half * (a2 + b1)))))%num = 0%num).
Proof. exact (qcrit_refuted junk). Qed.
Print Assumptions C65_q_refuted.

Theorem C65_q_mask_refuted :
  vf_wf masked_vf /\ vf_clean masked_vf /\ at_ (vmsk masked_vf) 1 1 = true /\
  forall q, exists s, vf_qcrit (fun _ _ => Some q) masked_vf None = Ok s /\
    at_ (values s) 2 1 = Some q /\ at_ (msk s) 2 1 = false /\ at_ (msk s) 1 1 = false.
Proof. exact qcrit_mask_refuted. Qed.
Print Assumptions C65_q_mask_refuted.


(** ** C104, C106: the neighbourhoods, with a radius counted in cells, and the enstrophy *)
Theorem C104_cells f user r :
  vf_wf f -> user_fits f user -> (0 < r)%num ->
  exists k, neighbourhood f user r true = Ok k /\
    NoDup (nmotif k) /\ (forall i j, In (i, j) (nmotif k) <-> (i, j) <> (0, 0)%Z /\ disc r 0 0 i j) /\
    forall i j, i < length (ax (vg f)) -> j < length (ay (vg f)) ->
      (skipped k i j = true <-> spoiled (length (ax (vg f))) (length (ay (vg f))) (both_masks f user) r i j).
Proof. exact (neighbourhood_ind_lemma f user r). Qed.
Print Assumptions C104_cells.

Theorem C104_distance_refuted :
  let f := lin_vf 7 7 (qz 3) 1%num 0 0 (- (1)) 0 1 0 in
  vf_wf f /\ vf_full f /\ evenly (ax (vg f)) (qz 3) /\ evenly (ay (vg f)) 1%num /\
  vf_enstrophy (vf_vorticity dfill) f None (qz 4) false = Err IndexErr.
Proof. exact radius_pos_refuted. Qed.
Print Assumptions C104_distance_refuted.

Theorem C106_value vorticity f user r hx hy w :
  vf_wf f -> user_fits f user -> evenly (ax (vg f)) hx -> evenly (ay (vg f)) hy ->
  (0 < r)%num -> vorticity f = Ok w -> sf_wf w -> sf_clean w -> sg w = vg f -> nothing_masked w ->
  exists s, vf_enstrophy vorticity f user r true = Ok s /\
    on_grid (vg f) s (unit_mul (unit_mul (unit_mul (uv w) (uv w)) (ux (vg f))) (uy (vg f))) /\ sf_clean s /\
    forall i j, i < length (ax (vg f)) -> j < length (ay (vg f)) ->
      (at_ (msk s) i j = true <-> spoiled (length (ax (vg f))) (length (ay (vg f))) (both_masks f user) r i j) /\
      (at_ (msk s) i j = false -> exists l, neighbours r i j l /\
        at_ (values s) i j = oscale (hx * hy)%num (osum (map (fun c => osq (at_ (values w) (fst c) (snd c))) l))).
Proof. exact (enstrophy_lemma vorticity f user r hx hy w). Qed.
Print Assumptions C106_value.

Theorem C106_nonneg vorticity f user r hx hy w s :
  vf_wf f -> user_fits f user -> evenly (ax (vg f)) hx -> evenly (ay (vg f)) hy ->
  (0 < r)%num -> vorticity f = Ok w -> sf_wf w -> sf_clean w -> sg w = vg f -> nothing_masked w ->
  vf_enstrophy vorticity f user r true = Ok s ->
  forall x y v m, sf_shows s x y (Some v) m -> (0 <= v)%num.
Proof. exact (enstrophy_nonneg_lemma vorticity f user r hx hy w s). Qed.
Print Assumptions C106_nonneg.

Example C104_example : vf_wf hole_vf /\ user_fits hole_vf None /\
  (let sp := spoiled 7 7 (both_masks hole_vf None) 1%num in ~ sp 1 1 /\ sp 2 3 /\ sp 0 4).
Proof. destruct hole_ok as (W & _). split; [exact W|]. split; [exact I|exact hole_spoiled]. Qed.
Example C106_example : let f := lin_vf 7 7 1 1 0 0 (- (1)) 0 1 0 in exists w s,
  vf_wf f /\ vf_vorticity dfill f = Ok w /\ sf_is w (fun _ _ => 1%num) /\
  vf_enstrophy (vf_vorticity dfill) f None 1%num true = Ok s /\ at_ (msk s) 3 3 = false /\ at_ (values s) 3 3 = Some (qz 4).
Proof.
  cbv zeta. destruct (lin_vf_ok 7 7 1 1 0 0 (- (1)) 0 1 0 ltac:(lia) ltac:(lia) eq_refl eq_refl) as (W & Ex & Ey & F).
  destruct (vorticity_linear_lemma no_interp no_interp no_interp _ _ _ _ _ _ _ _ _ W Ex Ey F) as (w & E & _ & Q).
  destruct (ok_ex (vf_enstrophy (vf_vorticity dfill) (lin_vf 7 7 1 1 0 0 (- (1)) 0 1 0) None 1%num true)
     (fun s => (negb (at_ (msk s) 3 3) && oeqb (at_ (values s) 3 3) (Some (qz 4)))%bool)) as (s & Es & H); [vm_compute; reflexivity|].
  apply andb_true_iff in H. destruct H as [H1 H2]. apply negb_true_iff in H1. apply oeqb_eq in H2.
  exists w, s. split; [exact W|]. split; [exact E|]. split; [|split; [exact Es|tauto]].
  intros x y v k K. destruct (Q _ _ _ _ K) as (-> & ->). split; [|reflexivity]. f_equal. qc.
Qed.
