(** * PropPot: potential flows by panels, over the real numbers (C201-C213).
    Statements, examples and counterexamples; the proofs are in PotProofs*.v.  The vocabulary is in PotSpec. *)
From Coq Require Import Reals List Bool Lra Lia.
From Verif Require Import Res PotModel PotSpec PotProofs PotProofs2 PotProofs3 PotProofs4 PotProofs5 PotProofs6.
Import ListNotations.
#[local] Open Scope R_scope.

(** ** C201 *)
Theorem C201_normal p : p_a p <> p_b p ->
  (cos (p_beta p), sin (p_beta p)) = normal_of (p_a p) (p_b p)
  /\ scalar (normal_of (p_a p) (p_b p)) (normal_of (p_a p) (p_b p)) = 1
  /\ scalar (normal_of (p_a p) (p_b p)) (fst (p_b p) - fst (p_a p), snd (p_b p) - snd (p_a p)) = 0.
Proof. intro H. split; [exact (panel_normal p H)|exact (normal_unit (p_a p) (p_b p) H)]. Qed.
Print Assumptions C201_normal.
Theorem C201_influence p x y dx dy s : p_a p <> p_b p ->
  integrand x y p dx dy s =
  let q := along (p_a p) (p_b p) (s / sqrt (dist2 (p_a p) (p_b p))) in
  ((x - fst q) * dx + (y - snd q) * dy) / dist2 (x, y) q.
Proof. intro H. rewrite <- p_len_dist. exact (influence_of_sources p x y dx dy s H). Qed.
Print Assumptions C201_influence.
Theorem C201_velocity quad u alpha ps x y : linear_quad quad -> Forall (fun p => p_a p <> p_b p) ps -> (forall p, In p ps -> on_panel p x y = false) ->
  let v := (u * cos alpha + sum_list (map (fun p => p_sigma p * fst (line_of_sources quad p x y)) ps),
            u * sin alpha + sum_list (map (fun p => p_sigma p * snd (line_of_sources quad p x y)) ps)) in
  Rabs (fst v) <= 10 ^ 30 -> Rabs (snd v) <= 10 ^ 30 -> velocity_with quad u alpha ps x y = v.
Proof. intro LQ. exact (velocity_away quad u alpha ps x y LQ). Qed.
Print Assumptions C201_velocity.
Example C201_example : p_a pb <> p_b pb /\ normal_of (p_a pb) (p_b pb) = (1, 0).
Proof. split; [neq|]. rewrite <- panel_normal by neq. rewrite cos_b, sin_b. reflexivity. Qed.

Example C201_example2 : linear_quad middle /\ Forall (fun p => p_a p <> p_b p) sq /\ forall p, In p sq -> on_panel p 5 5 = false.
Proof.
  split; [exact middle_linear|]. split; [unfold sq; repeat (constructor; [neq|]); constructor|].
  intros p [<-|[<-|[<-|[<-|[]]]]]; apply far_from; vals; unfold p_xc, p_yc; cbn; lra.
Qed.

(** ** C202 *)
Theorem C202_on_panel p x y : p_a p <> p_b p ->
  (on_panel p x y = true <->
   dist2 (along (p_a p) (p_b p) (/ 2)) (x, y) <= dist2 (p_a p) (p_b p) / 2
   /\ Rabs (area2 (p_a p) (p_b p) x y) < / 10000 * sqrt (dist2 (p_a p) (p_b p))).
Proof. exact (on_panel_iff p x y). Qed.
Print Assumptions C202_on_panel.
Theorem C202_tangent quad u alpha ps p t : Forall (fun p => p_a p <> p_b p) ps -> In p ps -> 0 <= t <= 1 ->
  let z := along (p_a p) (p_b p) t in
  exists q, In q ps /\ on_panel q (fst z) (snd z) = true /\ velocity_with quad u alpha ps (fst z) (snd z) = p_vector q
    /\ scalar (velocity_with quad u alpha ps (fst z) (snd z)) (normal_of (p_a q) (p_b q)) = 0.
Proof. exact (velocity_on_segment quad u alpha ps p t). Qed.
Print Assumptions C202_tangent.
Example C202_example : Forall (fun p => p_a p <> p_b p) sq /\ In pb sq /\ along (p_a pb) (p_b pb) (/ 4) = (1, / 4).
Proof.
  split; [|split].
  - unfold sq. repeat (constructor; [neq|]). constructor.
  - right. left. reflexivity.
  - apply pt_ext; unfold along; cbn; field.
Qed.

(** ** C203 *)
Theorem C203_past_the_end_refuted p t : p_a p <> p_b p -> 1 <= t <= 6 / 5 ->
  let z := along (p_a p) (p_b p) t in on_panel p (fst z) (snd z) = true.
Proof. exact (past_the_end p t). Qed.
Print Assumptions C203_past_the_end_refuted.
Example C203_example : on_panel pb 1 (6 / 5) = true.
Proof.
  pose proof (past_the_end pb (6 / 5)) as H. replace (on_panel pb 1 (6 / 5)) with (on_panel pb (fst (along (p_a pb) (p_b pb) (6 / 5))) (snd (along (p_a pb) (p_b pb) (6 / 5)))).
  - apply H; [neq|lra].
  - f_equal; unfold along; cbn; ring.
Qed.

(** ** C204 *)
Theorem C204_no_penetration quad solve s x y t v l1 q l2 : linear_quad quad -> exact_solve solve -> s_refresh s = true ->
  compute_velocity quad solve s x y = Ok (t, v) -> solid_panels t = l1 ++ q :: l2 -> p_a q <> p_b q ->
  let c := centre_velocity quad (s_u s) (s_alpha s) (l1 ++ l2) q in
  scalar c (normal_of (p_a q) (p_b q)) = 0
  /\ ((forall p, In p l1 -> on_panel p (p_xc q) (p_yc q) = false) -> compute_velocity quad solve t (p_xc q) (p_yc q) = Ok (t, c)).
Proof. intros LQ EX. exact (walls_state quad solve LQ EX s x y t v l1 q l2). Qed.
Print Assumptions C204_no_penetration.
Example C204_example : linear_quad middle /\ exact_solve two_multiples /\
  exists qs, solved_panels middle two_multiples 1 0 sq = Ok qs /\ map blank qs = sq /\ map p_sigma qs = map (Rmult m1) [- (1) * 0; - (1) * 1; - (1) * 0; - (1) * -1].
Proof. split; [exact middle_linear|]. split; [apply multiple_exact|]. exact (square_solved 1). Qed.

(** ** C205 *)
Theorem C205_history rnd quad solve u alpha h x y : exact_solve solve -> forallb no_inverse h = true ->
  velocity_after rnd quad solve u alpha h x y = velocity_after rnd quad solve u alpha (filter is_add h) x y.
Proof. intro EX. exact (velocity_history rnd quad solve EX u alpha h x y). Qed.
Print Assumptions C205_history.
Example C205_example : exact_solve two_multiples /\ forallb no_inverse [Velocity 2 2; Add 2 square true 1; Velocity 3 0; Solve] = true
  /\ exists v, velocity_after (fun _ => 1%nat) middle two_multiples 1 0 [Velocity 2 2; Add 2 square true 1; Velocity 3 0; Solve] 5 5 = Some (Ok v).
Proof.
  split; [apply multiple_exact|]. split; [reflexivity|]. rewrite C205_history by (apply multiple_exact || reflexivity). cbn [filter is_add]. apply square_velocity. reflexivity.
Qed.

(** ** C206 *)
Theorem C206_forgotten_refuted rnd quad solve u alpha l r x0 y0 v0 x y : exact_solve solve ->
  (2 <= length l)%nat -> (1 <= r)%nat -> no_empty_segment (closed_path l) -> Rabs u <= 10 ^ 30 ->
  velocity_after rnd quad solve u alpha [Add 2 l true r] x0 y0 = Some (Ok v0) ->
  let h := [Add 2 l true r; Velocity x0 y0; Inverse 0] in
  existsb (fun p => on_panel p x y) (solid_panels (after rnd quad solve u alpha h)) = false ->
  velocity_after rnd quad solve u alpha h x y = Some (Ok (u * cos alpha, u * sin alpha)).
Proof. intro EX. exact (forgotten_solid rnd quad solve EX u alpha l r x0 y0 v0 x y). Qed.
Print Assumptions C206_forgotten_refuted.
Theorem C206_square_refuted rnd : rnd 1 = 1%nat -> exists x y v w,
  velocity_after rnd middle two_multiples 1 0 [Add 2 square true 1; Inverse 0] x y = Some (Ok v)
  /\ velocity_after rnd middle two_multiples 1 0 [Add 2 square true 1; Velocity 3 3; Inverse 0] x y = Some (Ok w) /\ v <> w.
Proof. exact (stale_square rnd). Qed.
Print Assumptions C206_square_refuted.

(** ** C207 *)
Theorem C207_solid rnd s l wall r : (2 <= length l)%nat -> (1 <= r)%nat -> no_empty_segment (closed_path l) ->
  exists m,
    add_object rnd s 2 l wall r = Ok (mksys (s_u s) (s_alpha s) (s_1d s) (s_2d s ++ [mkobj m (map (fun e => mkpanel (fst e) (snd e) 0 0) (ends_of m)) wall]) true)
    /\ cut_in_parts (closed_path l) m /\ path_length m = path_length (closed_path l) /\ closed m.
Proof. exact (add_solid rnd s l wall r). Qed.
Print Assumptions C207_solid.
Theorem C207_closing rnd s p l wall r : last (p :: l) p <> p -> add_object rnd s 2 (p :: l) wall r = add_object rnd s 2 ((p :: l) ++ [p]) wall r.
Proof. exact (closing_given_or_not rnd s p l wall r). Qed.
Print Assumptions C207_closing.
Example C207_example : (2 <= length square)%nat /\ no_empty_segment (closed_path square) /\ closed_path square = square ++ [(0, 0)].
Proof. split; [cbn; lia|]. split; [exact square_segments|exact closed_square]. Qed.

(** ** C208 *)
Theorem C208_straight_refuted rnd s a b wall : rnd 1 = 1%nat -> add_object rnd s 1 [a; b] wall 1 = Err ValueErr.
Proof. exact (straight_wall_refused rnd s a b wall). Qed.
Print Assumptions C208_straight_refuted.
Theorem C208_closed_refuted rnd s l wall r t : add_object rnd s 1 l wall r = Ok t ->
  exists o, s_1d t = s_1d s ++ [o] /\ closed (o_nodes o) /\ first_point (o_nodes o) = first_point l.
Proof. exact (boundary_closed rnd s l wall r t). Qed.
Print Assumptions C208_closed_refuted.

(** ** C209 *)
Theorem C209_point_refuted rnd s l wall r : add_object rnd s 0 l wall r = Err TypeErr.
Proof. exact (no_point_source rnd s l wall r). Qed.
Print Assumptions C209_point_refuted.
Theorem C209_kind_refuted rnd quad solve s d l r t x y : exact_solve solve -> s_refresh s = true -> add_object rnd s d l false r = Ok t ->
  snd (play rnd quad solve t (Velocity x y)) = snd (play rnd quad solve s (Velocity x y)).
Proof. intro EX. exact (velocity_nonwall quad solve EX rnd s d l r t x y). Qed.
Print Assumptions C209_kind_refuted.

(** ** C210 *)
Theorem C210_distances a b n j k : 0 <= (fst b - fst a) * (snd b - snd a) -> (2 <= n)%nat -> (j < n)%nat -> (k < n)%nat ->
  nth 0 (line_positions a b n) 0 = 0
  /\ Rabs (nth j (line_positions a b n) 0 - nth k (line_positions a b n) 0) = sqrt (dist2 (along a b (INR j / INR (n - 1))) (along a b (INR k / INR (n - 1)))).
Proof. exact (positions_distances a b n j k). Qed.
Print Assumptions C210_distances.
Example C210_example : 0 <= (fst (3, 4) - fst (0, 0)) * (snd (3, 4) - snd (0, 0)) /\ nth 2 (line_positions (0, 0) (3, 4) 3) 0 = 5.
Proof.
  split; [cbn; lra|]. rewrite positions_up by (cbn; lra || lia). replace (dist2 (0, 0) (3, 4)) with (5 ^ 2) by (unfold dist2; cbn [fst snd]; ring). rewrite sqrt_pow2 by lra. cbn [INR minus]. field.
Qed.

(** ** C211 *)
Theorem C211_crossed_refuted a b n : (fst b - fst a) * (snd b - snd a) < 0 -> (2 <= n)%nat ->
  Rabs (nth (n - 1) (line_positions a b n) 0) = Rabs (Rabs (fst b - fst a) - Rabs (snd b - snd a))
  /\ Rabs (nth (n - 1) (line_positions a b n) 0) < sqrt (dist2 a b).
Proof. exact (positions_crossed a b n). Qed.
Print Assumptions C211_crossed_refuted.
Example C211_example : nth 99 (line_positions (0, 1) (1, 0) 100) 0 = 0.
Proof.
  destruct (positions_crossed (0, 1) (1, 0) 100) as [H _]; [cbn; lra|lia|]. cbn [fst snd minus] in H.
  replace (Rabs (1 - 0)) with 1 in H by (rewrite Rabs_pos_eq; lra). replace (Rabs (0 - 1)) with 1 in H by (rewrite Rabs_left1; lra).
  replace (1 - 1) with 0 in H by ring. rewrite Rabs_R0 in H. destruct (Req_dec (nth 99 (line_positions (0, 1) (1, 0) 100) 0) 0) as [E|E]; [exact E|]. exfalso. exact (Rabs_no_R0 _ E H).
Qed.

(** ** C212 *)
Theorem C212_pressure u vx vy : u <> 0 ->
  pressure u vx vy <= 1 /\ (pressure u vx vy = 1 <-> vx = 0 /\ vy = 0) /\ (pressure u vx vy = 0 <-> vx ^ 2 + vy ^ 2 = u ^ 2).
Proof. exact (pressure_bound u vx vy). Qed.
Print Assumptions C212_pressure.
Theorem C212_scaled quad solve k u alpha o1 o2 x y t v t' w : exact_solve solve -> u <> 0 -> k <> 0 ->
  determined (normal_matrix quad (solid_panels (mksys u alpha o1 o2 true))) ->
  compute_velocity quad solve (mksys u alpha o1 o2 true) x y = Ok (t, v) -> compute_velocity quad solve (mksys (k * u) alpha o1 o2 true) x y = Ok (t', w) ->
  v <> (0, 0) -> w <> (0, 0) ->
  w = (k * fst v, k * snd v) /\ pressure (k * u) (fst w) (snd w) = pressure u (fst v) (snd v).
Proof. intro EX. exact (pressure_of_scaled quad solve EX k u alpha o1 o2 x y t v t' w). Qed.
Print Assumptions C212_scaled.
Example C212_example : exact_solve two_multiples /\ solid_panels (mksys 1 0 [] [mkobj sq_nodes sq true] true) = sq /\ determined (normal_matrix middle sq)
  /\ pressure 2 1 0 = 3 / 4.
Proof. split; [apply multiple_exact|]. split; [reflexivity|]. split; [exact square_determined|]. unfold pressure. field. Qed.

(** ** C213 *)
Theorem C213_grid quad solve inside remove s gx gy t g i j : velocity_on_grid quad solve inside remove s gx gy = Ok (t, g) -> (i < length gx)%nat -> (j < length gy)%nat ->
  exists c, nth_error (nth i g []) j = Some c
    /\ (c = None <-> remove = true /\ exists o, In o (s_2d t) /\ o_wall o = true /\ inside (o_nodes o) (nth i gx 0) (nth j gy 0) = true)
    /\ (forall v, c = Some v -> compute_velocity quad solve s (nth i gx 0) (nth j gy 0) = Ok (t, v)).
Proof. exact (grid_value quad solve inside remove s gx gy t g i j). Qed.
Print Assumptions C213_grid.
Example C213_example : exists t g, velocity_on_grid middle two_multiples (fun _ _ _ => false) true (new_system 1 0) [0; 1; 2] [0; 1] = Ok (t, g) /\ length g = 3%nat.
Proof. eexists. eexists. split; reflexivity. Qed.
