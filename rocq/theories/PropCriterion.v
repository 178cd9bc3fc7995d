(** * PropCriterion: the criteria that need a square root or eigenvalues (C65, C103, C104, C105, C107), over the real numbers.
    Statements, examples and counterexamples; the proofs are in CriterionProofs*.v, the vocabulary in CriterionSpec,
    GradSpec and FieldSpec.  [get_gamma f user r ind kind], [get_kappa f user r ind relative] return the values and the mask
    of the result; ind=true: the radius r is in cells. *)
From Coq Require Import Reals Lra Qreals.
From Verif Require Import Num Res ListLib Arr FieldModel ScalarFieldModel VectorFieldModel PointsModel FieldSpec FieldProofs FieldProofs2
  GradModel GradSpec GradProofs GradProofs2 GradProofs3 GradProofs4 GradProofs5 GradProofs6 Concrete TemporalEx
  CriterionModel CriterionSpec CriterionProofs CriterionProofs2 CriterionProofs3 CriterionProofs4 CriterionProofs5 CriterionProofs6.
#[local] Open Scope R_scope.

(** ** C65: bounds *)
Theorem C65_gamma_partial f user r ind kind v m :
  kind <> Gamma1b -> get_gamma f user r ind kind = Ok (v, m) ->
  forall i j g, (i < d0 v)%nat -> (j < d1 v)%nat -> at_ v i j = Some g -> -1 <= g <= 1.
Proof. exact (gamma_bound_lemma f user r ind kind v m). Qed.
Print Assumptions C65_gamma_partial.

Theorem C65_kappa_partial f user r ind relative v m :
  get_kappa f user r ind relative = Ok (v, m) ->
  forall i j g, (i < d0 v)%nat -> (j < d1 v)%nat -> at_ v i j = Some g -> -1 <= g <= 1.
Proof. exact (kappa_bound_lemma f user r ind relative v m). Qed.
Print Assumptions C65_kappa_partial.

(** gamma1 of a rotation reaches the bound at its centre *)
Example C65_bound_example :
  exists v m, get_gamma spin_vf None 1%num true Gamma1 = Ok (v, m) /\ at_ m 2 2 = false /\ at_ v 2 2 = Some 1.
Proof. exact spin_gamma. Qed.

(** ** C104: what is computed at each cell *)
Theorem C104_gamma_partial f user r hx hy kind :
  vf_wf f -> vf_clean f -> user_fits f user -> evenly (ax (vg f)) hx -> evenly (ay (vg f)) hy -> (0 < r)%num ->
  exists v m, get_gamma f user r true kind = Ok (v, m) /\
    has_shape v (length (ax (vg f))) (length (ay (vg f))) /\ has_shape m (length (ax (vg f))) (length (ay (vg f))) /\
    forall i j, (i < length (ax (vg f)))%nat -> (j < length (ay (vg f)))%nat ->
      (at_ m i j = true <-> spoiled (length (ax (vg f))) (length (ay (vg f))) (both_masks f user) r i j) /\
      (at_ m i j = false -> exists l vel g, neighbours r i j l /\ shows_velocities f l vel /\
         at_ v i j = Some g /\ gamma_is kind (map (fun c => vsub (cell_pos f c) (cell_pos f (i, j))) l) vel g).
Proof. exact (gamma_lemma f user r hx hy kind). Qed.
Print Assumptions C104_gamma_partial.

Theorem C104_kappa_partial f user r hx hy (relative : bool) :
  vf_wf f -> vf_clean f -> user_fits f user -> evenly (ax (vg f)) hx -> evenly (ay (vg f)) hy -> (0 < r)%num ->
  exists v m, get_kappa f user r true relative = Ok (v, m) /\
    has_shape v (length (ax (vg f))) (length (ay (vg f))) /\ has_shape m (length (ax (vg f))) (length (ay (vg f))) /\
    forall i j, (i < length (ax (vg f)))%nat -> (j < length (ay (vg f)))%nat ->
      (at_ m i j = true <-> spoiled (length (ax (vg f))) (length (ay (vg f))) (both_masks f user) r i j) /\
      (at_ m i j = false -> exists l vel w g, neighbours r i j l /\ shows_velocities f l vel /\
         (if relative then has_velocity f (i, j) w else w = (0, 0)) /\
         at_ v i j = Some g /\ mean_cosine (map (fun c => vsub (cell_pos f c) (cell_pos f (i, j))) l) vel w g).
Proof. exact (kappa_lemma f user r hx hy relative). Qed.
Print Assumptions C104_kappa_partial.

(** with a distance, the cell is counted among its neighbours: gamma1 at the centre of the rotation is 4/5 instead of 1 *)
Theorem C104_centre_refuted :
  exists v m, get_gamma spin_vf None 1%num false Gamma1 = Ok (v, m) /\ at_ m 2 2 = false /\ at_ v 2 2 = Some (4 / 5).
Proof. exact gamma_distance_refuted. Qed.
Print Assumptions C104_centre_refuted.

Example C104_gamma_example : vf_wf hole_vf /\ vf_clean hole_vf /\ user_fits hole_vf None /\
  evenly (ax (vg hole_vf)) 1%num /\ evenly (ay (vg hole_vf)) 2%num /\
  let sp := spoiled 7 7 (both_masks hole_vf None) 1%num in ~ sp 1%nat 1%nat /\ sp 2%nat 3%nat /\ sp 0%nat 4%nat.
Proof.
  destruct hole_ok as (W & C & Ex & Ey). split; [exact W|]. split; [exact C|]. split; [exact I|]. split; [exact Ex|]. split; [exact Ey|].
  exact hole_spoiled.
Qed.

(** ** C105: invariances and reference values *)
Theorem C105_gamma2_galilean f f' w user r ind :
  translated f f' w -> same_result (get_gamma f user r ind Gamma2) (get_gamma f' user r ind Gamma2).
Proof. exact (gamma2_galilean f f' w user r ind). Qed.
Print Assumptions C105_gamma2_galilean.

Theorem C105_kappa2_galilean f f' w user r ind :
  translated f f' w -> same_result (get_kappa f user r ind true) (get_kappa f' user r ind true).
Proof. exact (kappa2_galilean f f' w user r ind). Qed.
Print Assumptions C105_kappa2_galilean.

Theorem C105_multiplied f f' k user r ind kind :
  multiplied f f' k -> (0 < k)%num -> kind <> Gamma1b ->
  same_result (get_gamma f user r ind kind) (get_gamma f' user r ind kind).
Proof. exact (gamma_multiplied_pos f f' k user r ind kind). Qed.
Print Assumptions C105_multiplied.

Theorem C105_opposite f f' k user r ind kind :
  multiplied f f' k -> (k < 0)%num -> kind <> Gamma1b ->
  opposite_result (get_gamma f user r ind kind) (get_gamma f' user r ind kind).
Proof. exact (gamma_multiplied_neg f f' k user r ind kind). Qed.
Print Assumptions C105_opposite.

Theorem C105_kappa_turned f f' user r ind :
  turned f f' -> same_result (get_kappa f user r ind false) (get_gamma f' user r ind Gamma1).
Proof. exact (kappa_turned f f' user r ind). Qed.
Print Assumptions C105_kappa_turned.

Theorem C105_rotation f user r hx hy kind a0 b0 w :
  vf_wf f -> user_fits f user -> evenly (ax (vg f)) hx -> evenly (ay (vg f)) hy -> (1 <= r)%num ->
  vf_is f (fun x y => a0 + 0 * x + - w * y)%num (fun x y => b0 + w * x + 0 * y)%num -> w <> 0%num ->
  exists v m, get_gamma f user r true kind = Ok (v, m) /\
    forall i j, (i < length (ax (vg f)))%nat -> (j < length (ay (vg f)))%nat -> at_ m i j = false ->
      kind = Gamma2 \/ (kind = Gamma1 /\ at_ (cx f) i j = Some 0%num /\ at_ (cy f) i j = Some 0%num) ->
      ((0 < w)%num -> at_ v i j = Some 1) /\ ((w < 0)%num -> at_ v i j = Some (-1)).
Proof. exact (gamma_rotation_lemma f user r hx hy kind a0 b0 w). Qed.
Print Assumptions C105_rotation.

Theorem C105_uniform f user r hx hy kind a0 b0 :
  vf_wf f -> user_fits f user -> evenly (ax (vg f)) hx -> evenly (ay (vg f)) hy -> (1 <= r)%num ->
  vf_is f (fun x y => a0 + 0 * x + 0 * y)%num (fun x y => b0 + 0 * x + 0 * y)%num ->
  exists v m, get_gamma f user r true kind = Ok (v, m) /\
    forall i j, (i < length (ax (vg f)))%nat -> (j < length (ay (vg f)))%nat -> at_ m i j = false ->
      kind = Gamma1 \/ kind = Gamma2 -> at_ v i j = Some 0.
Proof. exact (gamma_uniform_lemma f user r hx hy kind a0 b0). Qed.
Print Assumptions C105_uniform.

Example C105_translated_example :
  translated (lin_vf 5 6 1 2 0 1 2 (qz 3) 1 1)%num (lin_vf 5 6 1 2 (qz 3) 1 2 (qz 7) 1 1)%num (qz 3, qz 4).
Proof.
  split; [reflexivity|]. split; [reflexivity|]. split; [|split]; try (apply lin_vf_ok; try lia; reflexivity).
  intros i j. unfold lin_vf. cbn [cx cy at_ option_map fst snd]. generalize (nths (ramp 5 0 1) i) (nths (ramp 6 0 2) j). intros x y.
  replace (qz 7) with (qz 3 + qz 4)%num by qc. split; f_equal; qring.
Qed.
Example C105_multiplied_example :
  multiplied (lin_vf 5 6 1 2 0 1 2 (qz 3) 1 1)%num (lin_vf 5 6 1 2 0 (- (2)) (qz (-4)) (qz (-6)) (- (2)) (- (2)))%num (- (2))%num.
Proof.
  split; [reflexivity|]. split; [reflexivity|]. split; [|split]; try (apply lin_vf_ok; try lia; reflexivity).
  intros i j. unfold lin_vf. cbn [cx cy at_ option_map fst snd]. generalize (nths (ramp 5 0 1) i) (nths (ramp 6 0 2) j). intros x y.
  replace (qz (-4)) with (- (2) * 2)%num by qc. replace (qz (-6)) with (- (2) * qz 3)%num by qc. split; f_equal; qring.
Qed.
Example C105_turned_example :
  turned (lin_vf 5 6 1 2 0 1 2 (qz 3) 1 1)%num (lin_vf 5 6 1 2 (- qz 3) (- (1)) (- (1)) 0 1 2)%num.
Proof.
  split; [reflexivity|]. split; [reflexivity|]. split; [|split]; try (apply lin_vf_ok; try lia; reflexivity).
  intros i j. unfold lin_vf. cbn [cx cy at_ option_map fst snd]. generalize (nths (ramp 5 0 1) i) (nths (ramp 6 0 2) j). intros x y.
  split; f_equal; qring.
Qed.
Example C105_rotation_example : vf_wf spin_vf /\ evenly (ax (vg spin_vf)) 1%num /\ evenly (ay (vg spin_vf)) 1%num /\
  vf_is spin_vf (fun x y => 2 + 0 * x + - (1) * y)%num (fun x y => - (2) + 1 * x + 0 * y)%num /\
  ~ spoiled 5 5 (both_masks spin_vf None) 1%num 2 2.
Proof. destruct spin_ok as (W & Ex & Ey & F). destruct spin_spoiled as [S _]. repeat (split; [assumption|]). exact S. Qed.

(** ** C103: residual and shear vorticity *)
Theorem C103_parts_partial nearest linear cubic f hx hy :
  vf_wf f -> vf_full f -> evenly (ax (vg f)) hx -> evenly (ay (vg f)) hy ->
  exists w r s, vf_vorticity (default_fill nearest linear cubic) f = Ok w /\
    get_residual (default_fill nearest linear cubic) f = Ok r /\ get_shear (default_fill nearest linear cubic) f = Ok s /\
    forall i j, (i < length (ax (vg f)))%nat -> (j < length (ay (vg f)))%nat ->
      exists vw vr vs, at_ (values w) i j = Some vw /\ at_ r i j = Some vr /\ at_ s i j = Some vs /\
        vr + vs = toR vw /\ Rabs vr <= Rabs (toR vw) /\ 0 <= vr * toR vw /\
        forall a b c d, jacobian f i j a b c d -> toR vw = (c - b) / 2 /\
          (vr <> 0 <-> (4 * (a * a) + (b + c) * (b + c)) / 4 < toR vw * toR vw) /\
          (a + d = 0 -> (vr <> 0 <-> turns_all a b c d)).
Proof. exact (residual_field_lemma nearest linear cubic f hx hy). Qed.
Print Assumptions C103_parts_partial.

(** a spiral with an outward flow: no residual vorticity at all *)
Theorem C103_residual_refuted :
  exists f r, vf_is f (fun x y => x - y)%num (fun x y => x + y)%num /\ get_residual dfill f = Ok r /\
  forall i j, (i < length (ax (vg f)))%nat -> (j < length (ay (vg f)))%nat ->
    jacobian f i j 1 (-1) 1 1 /\ turns_all 1 (-1) 1 1 /\ at_ r i j = Some 0.
Proof. exact residual_refuted. Qed.
Print Assumptions C103_residual_refuted.

Example C103_example : vf_wf spin_vf /\ vf_full spin_vf /\ evenly (ax (vg spin_vf)) 1%num /\ evenly (ay (vg spin_vf)) 1%num /\
  (forall i j, (i < 5)%nat -> (j < 5)%nat -> jacobian spin_vf i j 0 (-1) 1 0) /\ turns_all 0 (-1) 1 0 /\ ~ turns_all 0 1 0 0.
Proof.
  destruct spin_ok as (W & Ex & Ey & F). split; [exact W|]. split; [exact (vf_is_full _ _ _ F)|]. split; [exact Ex|]. split; [exact Ey|]. split.
  { intros i j Hi Hj. pose proof (jacobian_linear spin_vf _ _ _ _ _ _ _ _ i j W Ex Ey F Hi Hj) as J.
    rewrite toR_opp, toR_1, toR_0 in J. replace (- (1)) with (-1) in J by lra. exact J. }
  split; [apply turns_all_iff; lra|]. intro K. apply turns_all_iff in K. lra.
Qed.

(** ** C107: criteria from the velocity gradient *)
Theorem C107_gradient f hx hy i j :
  vf_wf f -> vf_full f -> evenly (ax (vg f)) hx -> evenly (ay (vg f)) hy ->
  (i < length (ax (vg f)))%nat -> (j < length (ay (vg f)))%nat -> exists a b c d, jacobian f i j a b c d.
Proof. exact (jacobian_exists f hx hy i j). Qed.
Print Assumptions C107_gradient.

Theorem C107_swirling eig f hx hy :
  eigenvalues eig -> vf_wf f -> vf_full f -> evenly (ax (vg f)) hx -> evenly (ay (vg f)) hy ->
  exists v, get_swirling eig f = Ok v /\
    forall i j a b c d, (i < length (ax (vg f)))%nat -> (j < length (ay (vg f)))%nat -> jacobian f i j a b c d ->
      exists s, at_ v i j = Some s /\ 0 <= s /\ (0 < s <-> turns_all a b c d) /\
        (turns_all a b c d -> 4 * (s * s) = 4 * (a * d - b * c) - (a + d) * (a + d)).
Proof. exact (swirling_field_lemma eig f hx hy). Qed.
Print Assumptions C107_swirling.

Theorem C107_lambda2 eig f hx hy :
  eigenvalues eig -> vf_wf f -> vf_full f -> evenly (ax (vg f)) hx -> evenly (ay (vg f)) hy ->
  exists v, get_lambda2 eig f = Ok v /\
    forall i j a b c d, (i < length (ax (vg f)))%nat -> (j < length (ay (vg f)))%nat -> jacobian f i j a b c d ->
      exists l, at_ v i j = Some l /\
        (let m := ((a, b), (c, d)) in
         least_eigenvalue (madd (mmul (symmetric_part m) (symmetric_part m)) (mmul (antisymmetric_part m) (antisymmetric_part m))) l) /\
        (a + d = 0 -> l = - (a * d - b * c) /\ (l < 0 <-> turns_all a b c d)).
Proof. exact (lambda2_field_lemma eig f hx hy). Qed.
Print Assumptions C107_lambda2.

Theorem C107_nk f hx hy :
  vf_wf f -> vf_full f -> evenly (ax (vg f)) hx -> evenly (ay (vg f)) hy ->
  exists v, get_nk f = Ok v /\
    forall i j a b c d, (i < length (ax (vg f)))%nat -> (j < length (ay (vg f)))%nat -> jacobian f i j a b c d ->
      let m := ((a, b), (c, d)) in
      (norm_sq (symmetric_part m) = 0 -> at_ v i j = None) /\
      (0 < norm_sq (symmetric_part m) -> exists k, at_ v i j = Some k /\ 0 <= k /\
         k * k * norm_sq (symmetric_part m) = norm_sq (antisymmetric_part m) /\
         (1 < k <-> norm_sq (symmetric_part m) < norm_sq (antisymmetric_part m)) /\
         (a + d = 0 -> (1 < k <-> turns_all a b c d))).
Proof. exact (nk_field_lemma f hx hy). Qed.
Print Assumptions C107_nk.

Theorem C107_delta_partial eig f hx hy :
  eigenvalues eig -> vf_wf f -> vf_full f -> evenly (ax (vg f)) hx -> evenly (ay (vg f)) hy ->
  exists v, get_delta eig f = Ok v /\
    forall i j a b c d, (i < length (ax (vg f)))%nat -> (j < length (ay (vg f)))%nat -> jacobian f i j a b c d ->
      (snd (at_ v i j) = false <-> turns_all a b c d).
Proof. exact (delta_mask_lemma eig f hx hy). Qed.
Print Assumptions C107_delta_partial.

(** the streamlines of a rotation are closed and delta is positive at every cell *)
Theorem C107_delta_refuted eig :
  eigenvalues eig -> exists f v, vf_is f (fun _ y => - y)%num (fun x _ => x)%num /\ get_delta eig f = Ok v /\
  forall i j, (i < length (ax (vg f)))%nat -> (j < length (ay (vg f)))%nat ->
    jacobian f i j 0 (-1) 1 0 /\ turns_all 0 (-1) 1 0 /\ exists d, at_ v i j = (Some d, false) /\ 0 < d.
Proof. exact (delta_refuted eig). Qed.
Print Assumptions C107_delta_refuted.

Example C107_example : eigenvalues root_eig.
Proof. exact root_eig_ok. Qed.
