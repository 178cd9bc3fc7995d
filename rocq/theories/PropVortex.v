(** * PropVortex: the properties of systems of vortices (C52, C53, C54, C90, C91, C92, C93).
    Statements, examples and counterexamples; the proofs are in VortexProofs*.v.  The vocabulary is in VortexSpec.
    [reached h] is the system after the history [h] of additions, removals, walls, custom fields, velocity requests and
    time steps.  The real numbers of the standard library are used, with its axioms. *)
From Coq Require Import Reals Lra List ZArith Lia.
From Verif Require Import Res VortexModel VortexSpec VortexProofs VortexProofs2 VortexProofs3.
From Verif Require PointsSpec.
Import ListNotations.
#[local] Open Scope R_scope.

(** ** C52: the ids *)
Theorem C52_ids :
  forall h i v, nth_error (vorts (reached h)) i = Some v -> vid v = Z.of_nat i.
Proof. exact ids_contiguous. Qed.
Print Assumptions C52_ids.

Theorem C52_counter :
  forall h, curr_id (reached h) = Z.of_nat (length (vorts (reached h))).
Proof. exact counter_length. Qed.
Print Assumptions C52_counter.

Theorem C52_removed :
  forall h i k,
  let s := reached h in
  PointsSpec.designates (length (vorts s)) i k ->
  snd (s_remove s i) = None /\
  map body (vorts (fst (s_remove s i))) = firstn k (map body (vorts s)) ++ skipn (S k) (map body (vorts s)) /\
  walls (fst (s_remove s i)) = walls s /\ cfields (fst (s_remove s i)) = cfields s.
Proof. exact removed_lemma. Qed.
Print Assumptions C52_removed.

Theorem C52_out_of_range_partial :
  forall h i, (i >= Z.of_nat (length (vorts (reached h))) \/ i < - 2 * Z.of_nat (length (vorts (reached h))))%Z ->
  s_remove (reached h) i = (reached h, Some IndexErr).
Proof. exact remove_error. Qed.
Print Assumptions C52_out_of_range_partial.

Theorem C52_number_partial :
  forall h, existsb is_remove h = false ->
  nmb_vortex (reached h) = Z.of_nat (length (vorts (reached h))).
Proof. exact counter_without_removal. Qed.
Print Assumptions C52_number_partial.

(** removing a vortex does not update the number of vortices *)
Theorem C52_number_refuted :
  exists h, nmb_vortex (reached h) <> Z.of_nat (length (vorts (reached h))).
Proof. exact counter_refuted. Qed.
Print Assumptions C52_number_refuted.

(** an index below minus the number of vortices removes a vortex *)
Theorem C52_negative_index_refuted :
  exists h i,
  let s := reached h in (i < - Z.of_nat (length (vorts s)))%Z /\
  snd (s_remove s i) = None /\ length (vorts (fst (s_remove s i))) <> length (vorts s).
Proof. exact negative_index_refuted. Qed.
Print Assumptions C52_negative_index_refuted.

Example C52_example :
  let h := [VAdd (new_solid 0 0 1 true); VAdd (new_free 1 0 2 true); VWall (WallX 3); VAdd (new_solid 2 0 3 true); VRemove 1; VAdd (new_free 5 0 1 true); VRemove (-3)] in
  map vid (vorts (reached h)) = [0; 1]%Z /\ map vx0 (vorts (reached h)) = [2; 5] /\
  curr_id (reached h) = 2%Z /\ nmb_vortex (reached h) = 4%Z /\ PointsSpec.designates (length (vorts (reached h))) (-2) 0.
Proof.
  cbv zeta. split; [reflexivity|]. split; [reflexivity|]. split; [reflexivity|]. split; [reflexivity|].
  split; [exact Nat.lt_0_2|]. right. reflexivity.
Qed.

(** ** C53: the walls *)
Theorem C53_no_penetration_partial :
  forall h ws1 w ws2 x y a b,
  let s := reached h in
  walls s = ws1 ++ w :: ws2 -> Forall (perpendicular w) ws2 ->
  Forall (fun v => axisymmetric (kind v)) (vorts s) ->
  on_wall w (x, y) -> Forall (fun c => normal w (fst c x y) = 0) (cfields s) ->
  normal w (fst (s_vector s x y a b)) = 0.
Proof. exact no_penetration. Qed.
Print Assumptions C53_no_penetration_partial.

Theorem C53_symmetry_partial :
  forall h ws1 w ws2 x y a,
  let s := reached h in
  walls s = ws1 ++ w :: ws2 -> Forall (perpendicular w) ws2 ->
  Forall (fun v => axisymmetric (kind v)) (vorts s) ->
  fst (s_vector s (fst (mirror_pt w (x, y))) (snd (mirror_pt w (x, y))) a INone) = mirror_vec w (fst (s_vector s x y a INone)).
Proof. exact mirror_field. Qed.
Print Assumptions C53_symmetry_partial.

Theorem C53_stays_on_wall_partial :
  forall h dt s' ws1 w ws2 k v v',
  let s := reached h in
  walls s = ws1 ++ w :: ws2 -> Forall (perpendicular w) ws2 ->
  Forall (fun v => axisymmetric (kind v)) (vorts s) -> cfields s = [] ->
  s_evolve s dt = Ok s' -> nth_error (vorts s) k = Some v -> nth_error (vorts s') k = Some v' ->
  on_wall w (vx0 v, vy0 v) -> on_wall w (vx0 v', vy0 v').
Proof. exact stays_on_wall. Qed.
Print Assumptions C53_stays_on_wall_partial.

(** with the Hill vortex the normal velocity does not vanish *)
Theorem C53_hill_refuted :
  exists h w x y,
  let s := reached h in
  walls s = [w] /\ cfields s = [] /\ on_wall w (x, y) /\ normal w (fst (s_vector s x y IAll IAll)) <> 0.
Proof. exact hill_wall_refuted. Qed.
Print Assumptions C53_hill_refuted.

(** with two parallel walls it does not vanish on the first one *)
Theorem C53_parallel_refuted :
  exists h w1 w2 y,
  let s := reached h in
  walls s = [w1; w2] /\ Forall (fun v => axisymmetric (kind v)) (vorts s) /\ cfields s = [] /\
  on_wall w1 (0, y) /\ normal w1 (fst (s_vector s 0 y IAll IAll)) <> 0.
Proof. exact parallel_refuted. Qed.
Print Assumptions C53_parallel_refuted.

(** two perpendicular walls: the hypotheses hold for both walls *)
Example C53_example :
  let s := reached [VAdd (new_free 1 2 (-3) true); VAdd (new_rankine 2 1 1 1 false); VWall (WallX 0); VWall (WallY 0)] in
  walls s = [WallX 0] ++ WallY 0 :: [] /\ walls s = [] ++ WallX 0 :: [WallY 0] /\ Forall (perpendicular (WallX 0)) [WallY 0] /\
  Forall (fun v => axisymmetric (kind v)) (vorts s) /\ on_wall (WallX 0) (0, 5) /\ on_wall (WallY 0) (7, 0) /\ cfields s = [] /\
  length (images (snd (s_vector s 0 5 IAll IAll))) = 6%nat.
Proof. cbv zeta. repeat split; repeat constructor. cbn. lra. Qed.

(** ** C54: superposition *)
Theorem C54_sum_of_reflections :
  forall h x y, let s := reached h in
  fst (s_vector s x y IAll IAll) = vplus (vsum (map (fun v => induced (walls s) v x y) (vorts s))) (vsum (map (fun c => fst c x y) (cfields s))).
Proof. exact vector_all. Qed.
Print Assumptions C54_sum_of_reflections.

Theorem C54_superposition :
  forall h x y,
  let s := reached h in
  let '(vects, ids, cvects, cids) := s_compound s x y in
  ids = map Z.of_nat (seq 0 (length (vorts s))) /\ cids = map Z.of_nat (seq 0 (length (cfields s))) /\
  length vects = length (vorts s) /\ length cvects = length (cfields s) /\
  vplus (vsum vects) (vsum cvects) = fst (s_vector s x y IAll IAll).
Proof. exact superposition. Qed.
Print Assumptions C54_superposition.

Theorem C54_selection :
  forall h x y ids cids,
  let s := reached h in
  fst (s_vector s x y (IList ids) (IList cids)) =
  vplus (vsum (map (fun v => induced (walls s) v x y) (filter (fun v => if in_dec Z.eq_dec (vid v) ids then true else false) (vorts s))))
        (vsum (map (fun c => fst c x y) (filter (fun c => if in_dec Z.eq_dec (snd c) cids then true else false) (cfields s)))).
Proof. exact selection. Qed.
Print Assumptions C54_selection.

Theorem C54_none :
  forall h x y, fst (s_vector (reached h) x y INone INone) = (0, 0).
Proof. exact vector_none. Qed.
Print Assumptions C54_none.

Theorem C54_request_changes_nothing :
  forall h x y a b x' y' a' b',
  fst (s_vector (snd (s_vector (reached h) x y a b)) x' y' a' b') = fst (s_vector (reached h) x' y' a' b').
Proof. exact vector_pure. Qed.
Print Assumptions C54_request_changes_nothing.

Theorem C54_vector_field :
  forall h x y, s_field_at (reached h) x y = fst (s_vector (reached h) x y IAll IAll).
Proof. exact field_pointwise. Qed.
Print Assumptions C54_vector_field.

Example C54_example :
  let s := reached [VAdd (mkv 1 0 true 1 0 (Solid 1)); VWall (WallX 0); VVector 0 0 IAll IAll; VAdd (mkv 2 0 true 1 0 (Solid 1)); VRemove 0] in
  fst (s_vector s 0 0 IAll IAll) = (0, -4).
Proof.
  cbv zeta. rewrite vector_all. cbn -[v_vector]. unfold induced, reflections. cbn -[v_vector].
  rewrite !(solid_form _ 1) by reflexivity. cbn. unfold vplus. cbn. f_equal; lra.
Qed.

(** ** C90: the motion of free vortices *)
Theorem C90_impulse :
  forall h dt n l,
  let s := reached h in
  free_system s -> s_trajectories s dt n = Ok l ->
  length l = S n /\
  forall k t ps, nth_error l k = Some (t, ps) ->
    t = INR k * dt /\ length ps = length (vorts s) /\
    weighted (map circulation (vorts s)) ps = weighted (map circulation (vorts s)) (map (fun v => (vx0 v, vy0 v)) (vorts s)).
Proof. exact trajectories_conserve. Qed.
Print Assumptions C90_impulse.

Example C90_example :
  let s := reached [VAdd (new_free 0 0 1 true); VAdd (new_free 1 0 (-2) true)] in
  free_system s /\ exists l, s_trajectories s 1 3 = Ok l.
Proof.
  cbv zeta. split; [repeat split; repeat constructor|].
  unfold s_trajectories, s_times, s_evolve. destruct (Rle_dec 1 0); [lra|]. cbn [bind]. eexists. reflexivity.
Qed.

(** ** C91: the velocity of each kind of vortex *)
Theorem C91_solid :
  forall x0 y0 omega m x y,
  v_vector (new_solid x0 y0 omega m) x y = (- omega * (y - y0), omega * (x - x0)).
Proof. exact solid_law. Qed.
Print Assumptions C91_solid.

Theorem C91_free :
  forall x0 y0 gamma m x y, (x <> x0 \/ y <> y0) ->
  let V := v_vector (new_free x0 y0 gamma m) x y in
  radial x0 y0 x y V = 0 /\ swirl x0 y0 x y V = gamma / (2 * PI).
Proof. exact free_law. Qed.
Print Assumptions C91_free.

Theorem C91_rankine :
  forall x0 y0 circ rv m x y, 0 < rv ->
  let V := v_vector (new_rankine x0 y0 circ rv m) x y in
  let r := dist x0 y0 x y in
  radial x0 y0 x y V = 0 /\
  (r <= rv -> swirl x0 y0 x y V = circ / (2 * PI) * (r * r / (rv * rv))) /\
  (rv <= r -> swirl x0 y0 x y V = circ / (2 * PI)).
Proof. exact rankine_law. Qed.
Print Assumptions C91_rankine.

Theorem C91_rankine_peak :
  forall x0 y0 circ rv m x y, 0 < rv ->
  let V := v_vector (new_rankine x0 y0 circ rv m) x y in
  speed V <= Rabs circ / (2 * PI * rv) /\ (dist x0 y0 x y = rv -> speed V = Rabs circ / (2 * PI * rv)).
Proof. exact rankine_peak. Qed.
Print Assumptions C91_rankine_peak.

Theorem C91_lamb_oseen :
  forall x0 y0 ksi t nu m x y,
  let V := v_vector (new_oseen x0 y0 ksi t nu m) x y in
  let r := dist x0 y0 x y in
  radial x0 y0 x y V = 0 /\ swirl x0 y0 x y V = ksi / (2 * PI) * (1 - exp (- (r * r) / (4 * nu * t))).
Proof. exact oseen_law. Qed.
Print Assumptions C91_lamb_oseen.

Theorem C91_lamb_oseen_bound :
  forall x0 y0 ksi t nu m x y, 0 < nu * t ->
  Rabs (swirl x0 y0 x y (v_vector (new_oseen x0 y0 ksi t nu m) x y)) <= Rabs (ksi / (2 * PI)).
Proof. exact oseen_below_free. Qed.
Print Assumptions C91_lamb_oseen_bound.

Theorem C91_burger :
  forall x0 y0 alpha ksi nu m x y,
  let V := v_vector (new_burger x0 y0 alpha ksi nu m) x y in
  let r := dist x0 y0 x y in
  radial x0 y0 x y V = - alpha / 2 * (r * r) /\ swirl x0 y0 x y V = ksi / (2 * PI) * (1 - exp (- alpha * (r * r) / (4 * nu))).
Proof. exact burger_law. Qed.
Print Assumptions C91_burger.

Theorem C91_reflection :
  forall w v x y, axisymmetric (kind v) ->
  v_vector (mirror_vortex w v) (fst (mirror_pt w (x, y))) (snd (mirror_pt w (x, y))) = mirror_vec w (v_vector v x y).
Proof. exact mirror_velocity. Qed.
Print Assumptions C91_reflection.

Example C91_example : (3 <> 1 \/ 4 <> 1) /\ 0 < 2 /\ dist 0 0 3 4 = 5 /\ 0 < 1 * 2 /\ axisymmetric (Burger 1 2 3).
Proof.
  repeat split; try lra; try (left; lra). unfold dist. replace ((3 - 0) * (3 - 0) + (4 - 0) * (4 - 0)) with (5 * 5) by ring.
  apply sqrt_square. lra.
Qed.

(** ** C92: a time step and the velocity map *)
Theorem C92_step :
  forall h dt, let s := reached h in
  (dt <= 0 -> s_evolve s dt = Err ValueErr) /\
  (0 < dt -> exists s', s_evolve s dt = Ok s' /\ walls s' = walls s /\ cfields s' = cfields s /\
     Forall2 (fun v v' => movable v' = movable v /\ rot v' = rot v /\ vid v' = vid v /\ kind v' = kind v /\
                (movable v = false -> vx0 v' = vx0 v /\ vy0 v' = vy0 v) /\
                (movable v = true -> (vx0 v', vy0 v') = vplus (vx0 v, vy0 v) (let V := fst (s_vector s (vx0 v) (vy0 v) IAll IAll) in (dt * fst V, dt * snd V))))
       (vorts s) (vorts s')).
Proof. exact evolve_step. Qed.
Print Assumptions C92_step.

Theorem C92_trajectories :
  forall h dt n, let s := reached h in
  (0 < dt -> exists l, s_trajectories s dt n = Ok l /\ length l = S n /\
     forall k, (k <= n)%nat -> nth_error l k = Some (INR k * dt, map (fun v => (vx0 v, vy0 v)) (vorts (reached (h ++ repeat (VEvolve dt) k))))) /\
  (dt <= 0 -> (0 < n)%nat -> s_trajectories s dt n = Err ValueErr).
Proof. exact trajectories_follow. Qed.
Print Assumptions C92_trajectories.

Theorem C92_velocity_map :
  forall h v ps, let s := reached h in movable v = true ->
  s_velocity_map s v ps =
  Ok (map (fun p => vplus (fst (s_vector s (fst p) (snd p) IAll IAll)) (induced (walls s) (moved_to v (fst p) (snd p)) (fst p) (snd p))) ps).
Proof. exact velocity_map. Qed.
Print Assumptions C92_velocity_map.

Example C92_example : movable (new_free 1 2 (-3) true) = true /\
  is_ok (s_evolve (reached [VAdd (new_free 1 2 (-3) true); VWall (WallX 0)]) (1 / 2)) = true.
Proof. split; [reflexivity|]. unfold s_evolve. destruct (Rle_dec (1 / 2) 0); [lra|reflexivity]. Qed.

(** ** C93: the detailed contributions *)
Theorem C93_detailed_partial :
  forall h x y,
  let s := reached h in
  to_refresh s = false ->
  let '(vects, _, cvects, _) := s_compound_detailed s x y in
  vplus (vsum vects) (vsum cvects) = fst (s_vector s x y IAll IAll).
Proof. exact detailed_fresh. Qed.
Print Assumptions C93_detailed_partial.

Theorem C93_after_request_partial :
  forall h x0 y0 a b x y,
  let s := snd (s_vector (reached h) x0 y0 a b) in
  let '(vects, _, cvects, _) := s_compound_detailed s x y in
  vplus (vsum vects) (vsum cvects) = fst (s_vector s x y IAll IAll).
Proof. exact detailed_after_vector. Qed.
Print Assumptions C93_after_request_partial.

(** the images are missing when a wall was added since the last request *)
Theorem C93_detailed_refuted :
  exists h x y,
  let s := reached h in
  let '(vects, _, cvects, _) := s_compound_detailed s x y in
  vplus (vsum vects) (vsum cvects) <> fst (s_vector s x y IAll IAll).
Proof. exact detailed_refuted. Qed.
Print Assumptions C93_detailed_refuted.

Example C93_example : to_refresh (reached [VAdd (new_free 1 2 (-3) true); VWall (WallX 0); VVector 0 0 IAll IAll]) = false.
Proof. reflexivity. Qed.
