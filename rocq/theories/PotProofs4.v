(** * PotProofs4: the walls, the histories, the scaling and the grids. *)
From Coq Require Import Reals List Bool Lra Lia Psatz.
From Verif Require Import Res PotModel PotSpec PotProofs PotProofs2 PotProofs3.
Import ListNotations.
#[local] Open Scope R_scope.

Lemma forall2_indexed : forall {X Y Z} (P : Y -> Z -> Prop) (F : nat * X -> Y) (G : X -> Z) l1 k q l2,
  Forall2 P (map F (indexed k (l1 ++ q :: l2))) (map G (l1 ++ q :: l2)) -> P (F ((k + length l1)%nat, q)) (G q).
Proof.
  intros X Y Z P F G. induction l1 as [|x l1 IH]; intros k q l2 H; cbn [app indexed map length] in H |- *; inversion H; subst.
  - replace (k + 0)%nat with k by lia. assumption.
  - replace (k + S (length l1))%nat with (S k + length l1)%nat by lia. eapply IH. eassumption.
Qed.
Lemma map_indexed : forall {X Y} (f : X -> R) (F : nat * X -> Y) (G : Y -> X -> R) l1 k q l2,
  map f (l1 ++ q :: l2) = map (fun rp => G (fst rp) (snd rp)) (combine (map F (indexed k (l1 ++ q :: l2))) (l1 ++ q :: l2)) -> f q = G (F ((k + length l1)%nat, q)) q.
Proof.
  intros X Y f F G. induction l1 as [|x l1 IH]; intros k q l2 H; cbn [app indexed map length combine fst snd] in H |- *; injection H as H1 H2.
  - replace (k + 0)%nat with k by lia. assumption.
  - replace (k + S (length l1))%nat with (S k + length l1)%nat by lia. eapply IH. eassumption.
Qed.
Lemma times_row : forall i d (h : panel -> R) l k, (i < k \/ k + length l <= i)%nat ->
  times (map (fun jp => if Nat.eqb i (fst jp) then d else h (snd jp)) (indexed k l)) (map p_sigma l) = sum_list (map (fun p => p_sigma p * h p) l).
Proof.
  intros i d h. induction l as [|p l IH]; intros k H; [reflexivity|]. cbn [indexed map times sum_list fst snd length] in *.
  replace (Nat.eqb i k) with false by (symmetry; apply Nat.eqb_neq; lia). rewrite IH by lia. ring.
Qed.
Lemma times_all : forall d (h : panel -> R) l1 q l2,
  times (map (fun jp => if Nat.eqb (0 + length l1) (fst jp) then d else h (snd jp)) (indexed 0 (l1 ++ q :: l2))) (map p_sigma (l1 ++ q :: l2)) =
  sum_list (map (fun p => p_sigma p * h p) (l1 ++ l2)) + p_sigma q * d.
Proof.
  intros d h l1 q l2. rewrite indexed_app. rewrite !map_app, times_app by (rewrite !map_length, indexed_length; reflexivity).
  rewrite times_row by lia. cbn [indexed map times fst snd plus]. rewrite Nat.eqb_refl. rewrite times_row by lia. rewrite sum_app. ring.
Qed.
Lemma sum_scale : forall c l, sum_list (map (Rmult c) l) = c * sum_list l.
Proof. induction l as [|x l IH]; cbn; [ring|]. rewrite IH. ring. Qed.
Lemma sum_split : forall (a b : R) (F G H : panel -> R) l, (forall p, F p = a * G p + b * H p) -> sum_list (map F l) = a * sum_list (map G l) + b * sum_list (map H l).
Proof. intros a b F G H l E. induction l as [|x l IH]; cbn; [ring|]. rewrite IH, E. ring. Qed.

Section Walls.
Variable quad : (R -> R) -> R -> R -> R.
Variable solve : list (list R) -> list R -> res (list R).
Hypothesis EX : exact_solve solve.

Lemma combine_strengths : forall ps sg vt, length sg = length ps -> length vt = length ps ->
  map p_sigma (map (fun q => mkpanel (p_a (fst q)) (p_b (fst q)) (fst (snd q)) (snd (snd q))) (combine ps (combine sg vt))) = sg
  /\ map p_vt (map (fun q => mkpanel (p_a (fst q)) (p_b (fst q)) (fst (snd q)) (snd (snd q))) (combine ps (combine sg vt))) = vt.
Proof.
  induction ps as [|p ps IH]; intros [|x sg] [|y vt] L1 L2; cbn in L1, L2; try discriminate L1; try discriminate L2; [split; reflexivity|].
  destruct (IH sg vt) as [A B]; [lia|lia|]. cbn [combine map fst snd p_sigma p_vt]. split; f_equal; assumption.
Qed.
Lemma solved_facts : forall u alpha ps qs, solved_panels quad solve u alpha ps = Ok qs ->
  Forall2 (fun row c => times row (map p_sigma qs) = c) (normal_matrix quad qs) (map (fun p => - u * cos (alpha - p_beta p)) qs)
  /\ map p_vt qs = map (fun rp => (fun r p => times r (map p_sigma qs) + u * sin (alpha - p_beta p)) (fst rp) (snd rp)) (combine (tangent_matrix quad qs) qs).
Proof.
  intros u alpha ps qs E. pose proof (solved_length quad solve EX _ _ _ _ E) as [L B]. 
  rewrite <- solved_blank, <- B, solved_blank in E. unfold solved_panels in E.
  destruct (solve _ _) as [sg|e] eqn:S; cbn [bind] in E; [|discriminate E]. injection E as E.
  apply EX in S as [L' F]. rewrite map_length in L'.
  set (vt := map _ (combine (tangent_matrix quad qs) qs)) in E.
  assert (V : length vt = length qs).
  { unfold vt. rewrite map_length, combine_length. unfold tangent_matrix. rewrite map_length, indexed_length. lia. }
  destruct (combine_strengths qs sg vt L' V) as [A C]. rewrite E in A, C.
  rewrite A. split; [exact F|]. rewrite C. unfold vt. apply map_ext. intros [r p]. cbn [fst snd]. rewrite dot_times. reflexivity.
Qed.

Hypothesis LQ : linear_quad quad.
Lemma integral_linear : forall x y p dx dy, integral quad x y p dx dy = dx * integral quad x y p 1 0 + dy * integral quad x y p 0 1.
Proof.
  intros. destruct LQ as [A B]. unfold integral. rewrite <- A. apply B. intro s. unfold integrand. cbv zeta. unfold Rdiv. ring.
Qed.
Lemma walls_hold : forall u alpha ps qs l1 q l2, solved_panels quad solve u alpha ps = Ok qs -> qs = l1 ++ q :: l2 ->
  let v := centre_velocity quad u alpha (l1 ++ l2) q in
  scalar v (cos (p_beta q), sin (p_beta q)) = 0 /\ scalar v (- sin (p_beta q), cos (p_beta q)) = p_vt q /\ v = p_vector q.
Proof.
  intros u alpha ps qs l1 q l2 E Q v. destruct (solved_facts _ _ _ _ E) as [N T]. rewrite Q in N, T.
  unfold normal_matrix in N. apply (forall2_indexed _ _ _ l1 0 q l2) in N. cbn [fst snd] in N.
  unfold tangent_matrix in T. apply (map_indexed p_vt _ (fun r p => times r (map p_sigma (l1 ++ q :: l2)) + u * sin (alpha - p_beta p)) l1 0 q l2) in T. cbn [fst snd] in T.
  rewrite (times_all (/ 2) (fun p => / 2 / PI * integral quad (p_xc q) (p_yc q) p (p_cos q) (p_sin q)) l1 q l2) in N.
  rewrite (times_all 0 (fun p => / 2 / PI * integral quad (p_xc q) (p_yc q) p (- sin (p_beta q)) (cos (p_beta q))) l1 q l2) in T.
  rewrite (sum_split (/ 2 / PI * p_cos q) (/ 2 / PI * p_sin q) _ (fun p => p_sigma p * integral quad (p_xc q) (p_yc q) p 1 0) (fun p => p_sigma p * integral quad (p_xc q) (p_yc q) p 0 1)) in N
    by (intro p; rewrite (integral_linear _ _ p); ring).
  rewrite (sum_split (/ 2 / PI * - sin (p_beta q)) (/ 2 / PI * cos (p_beta q)) _ (fun p => p_sigma p * integral quad (p_xc q) (p_yc q) p 1 0) (fun p => p_sigma p * integral quad (p_xc q) (p_yc q) p 0 1)) in T
    by (intro p; rewrite (integral_linear _ _ p); ring).
  unfold p_cos, p_sin in N. rewrite cos_minus in N. rewrite sin_minus in T.
  pose proof (sin2_cos2 (p_beta q)) as SC. unfold Rsqr in SC. subst v. unfold centre_velocity, scalar, p_vector. cbn [fst snd].
  set (I := sum_list (map (fun p => p_sigma p * integral quad (p_xc q) (p_yc q) p 1 0) (l1 ++ l2))) in *.
  set (J := sum_list (map (fun p => p_sigma p * integral quad (p_xc q) (p_yc q) p 0 1) (l1 ++ l2))) in *.
  set (c := cos (p_beta q)) in *. set (s := sin (p_beta q)) in *. set (w := / 2 / PI) in *.
  assert (K1 : (u * cos alpha + w * I + p_sigma q / 2 * c) * c + (u * sin alpha + w * J + p_sigma q / 2 * s) * s = 0).
  { replace ((u * cos alpha + w * I + p_sigma q / 2 * c) * c + (u * sin alpha + w * J + p_sigma q / 2 * s) * s)
      with ((w * c * I + w * s * J + p_sigma q * / 2) + u * (cos alpha * c + sin alpha * s) + p_sigma q / 2 * (s * s + c * c - 1)) by field.
    rewrite N, SC. ring. }
  assert (K2 : (u * cos alpha + w * I + p_sigma q / 2 * c) * - s + (u * sin alpha + w * J + p_sigma q / 2 * s) * c = p_vt q).
  { rewrite T. field. }
  split; [exact K1|split; [exact K2|]].
  set (vx := u * cos alpha + w * I + p_sigma q / 2 * c) in *. set (vy := u * sin alpha + w * J + p_sigma q / 2 * s) in *.
  rewrite <- K2. f_equal.
  - transitivity (vx * (s * s + c * c) - (vx * c + vy * s) * c + (vx * c + vy * s) * c); [rewrite SC; ring|]. rewrite K1.
    transitivity (vx * (s * s) - vy * c * s + c * (vx * c + vy * s)); [ring|]. rewrite K1. ring.
  - transitivity (vy * (s * s + c * c)); [rewrite SC; ring|]. transitivity (s * (vx * c + vy * s) + (vx * - s + vy * c) * c); [ring|]. rewrite K1. ring.
Qed.
End Walls.

(** ** the system *)
Section Systems.
Variable rnd : R -> nat.
Variable quad : (R -> R) -> R -> R -> R.
Variable solve : list (list R) -> list R -> res (list R).
Hypothesis EX : exact_solve solve.
Lemma solving_ok : forall s t, solving_sigma quad solve s = Ok t ->
  same_sys t s /\ s_refresh t = false /\ solved_panels quad solve (s_u s) (s_alpha s) (solid_panels s) = Ok (solid_panels t).
Proof.
  intros s t E. unfold solving_sigma in E. destruct (solved_panels _ _ _ _ _) as [ps|e] eqn:S; cbn [bind] in E; [|discriminate E]. injection E as <-.
  destruct (solved_length quad solve EX _ _ _ _ S) as [L B]. set (n := length (wall_panels (s_1d s))).
  unfold solid_panels in L, B. rewrite app_length in L. rewrite map_app in B. fold n in L.
  rewrite <- (firstn_skipn n ps) in B. rewrite map_app in B. apply app_inj_l in B; [|rewrite !map_length, firstn_length; unfold n in *; lia]. destruct B as [B1 B2].
  destruct (put_keeps (s_1d s) (firstn n ps)) as [P1 Q1]; [rewrite firstn_length; unfold n in *; lia|exact B1|].
  destruct (put_keeps (s_2d s) (skipn n ps)) as [P2 Q2]; [rewrite skipn_length; lia|exact B2|].
  split; [|split].
  - repeat split; assumption.
  - reflexivity.
  - unfold solid_panels. cbn [s_1d s_2d]. rewrite Q1, Q2, firstn_skipn. reflexivity.
Qed.
Lemma same_sys_sym : forall s t, same_sys s t -> same_sys t s.
Proof.
  intros s t [U [A [F1 F2]]]. assert (Y : forall a b, Forall2 same_obj a b -> Forall2 same_obj b a).
  { induction 1 as [|x y l m S _ IH]; constructor; [|exact IH]. destruct S as [N [W [P B]]]. repeat split; try (symmetry; assumption). intro Z. symmetry. apply B. congruence. }
  repeat split; try (symmetry; assumption); apply Y; assumption.
Qed.
Lemma same_sys_refl : forall s, same_sys s s.
Proof. intro s. repeat split; apply same_objs_refl. Qed.

(** what ties a system to the one of the additions only *)
Definition linked (s t : system) : Prop :=
  same_sys s t /\ ((s_refresh s = true /\ s_refresh t = true) \/ (s_refresh s = false /\ s_refresh t = true /\ solving_sigma quad solve t = Ok s) \/ (s = t /\ s_1d s = [] /\ s_2d s = [] /\ s_refresh s = false)).
Lemma add_linked : forall s t d l w r, linked s t -> linked (match add_object rnd s d l w r with Ok s' => s' | Err _ => s end) (match add_object rnd t d l w r with Ok t' => t' | Err _ => t end).
Proof.
  intros s t d l w r K. pose proof K as [[U [A [F1 F2]]] _]. unfold add_object. destruct d as [|[|[|d]]]; [exact K| | |exact K].
  - destruct (Nat.ltb r 1); [exact K|]. destruct (new_obj rnd l w r) as [o|e]; cbn [bind]; [|exact K].
    split; [|left; split; reflexivity]. split; [exact U|split; [exact A|split; [|exact F2]]]. cbn. apply Forall2_app; [exact F1|]. constructor; [apply same_obj_refl|constructor].
  - destruct (new_obj rnd (closed_path l) w r) as [o|e]; cbn [bind]; [|exact K].
    split; [|left; split; reflexivity]. split; [exact U|split; [exact A|split; [exact F1|]]]. cbn. apply Forall2_app; [exact F2|]. constructor; [apply same_obj_refl|constructor].
Qed.
Lemma solve_linked : forall s t s', linked s t -> solving_sigma quad solve s = Ok s' -> linked s' t /\ (s_refresh s = false -> s' = s).
Proof.
  intros s t s' [S K] E. destruct (solving_ok _ _ E) as [S' [R' _]].
  destruct K as [[R1 R2]|[[R1 [R2 K]]|[K1 [K2 [K3 K4]]]]].
  - rewrite (solving_same quad solve s t S) in E. split; [|congruence]. destruct (solving_ok _ _ E) as [S'' _]. split; [exact S''|]. right. left. repeat split; assumption.
  - rewrite (solving_same quad solve s t S), K in E. injection E as <-. split; [|reflexivity]. split; [exact S|]. right. left. repeat split; assumption.
  - assert (Z : s' = s).
    { unfold solving_sigma in E. destruct (solved_panels _ _ _ _ _) as [ps|e]; cbn [bind] in E; [|discriminate E]. injection E as <-. rewrite K2, K3. cbn. destruct s. cbn in *. subst. reflexivity. }
    rewrite Z. split; [|reflexivity]. split; [exact S|]. right. right. repeat split; assumption.
Qed.
Lemma play_linked : forall e s t, no_inverse e = true -> linked s t ->
  linked (fst (play rnd quad solve s e)) (if is_add e then fst (play rnd quad solve t e) else t).
Proof.
  intros e s t N K. destruct e as [d l w r|x y| |k]; [| | |discriminate N]; cbn [is_add play fst].
  - apply add_linked, K.
  - unfold compute_velocity, refreshed. destruct (s_refresh s) eqn:R.
    + destruct (solving_sigma quad solve s) as [s'|e] eqn:E; cbn [bind fst]; [|exact K]. apply (solve_linked s t s' K E).
    + cbn [bind fst]. exact K.
  - destruct (solving_sigma quad solve s) as [s'|e] eqn:E; [|exact K]. apply (solve_linked s t s' K E).
Qed.
Lemma plays_fst : forall h s, fst (plays rnd quad solve s h) = fold_left (fun s e => fst (play rnd quad solve s e)) h s.
Proof.
  induction h as [|e h IH]; intro s; [reflexivity|]. cbn [plays fold_left]. destruct (play rnd quad solve s e) as [t o] eqn:P. specialize (IH t).
  destruct (plays rnd quad solve t h) as [u os]. cbn [fst] in *. exact IH.
Qed.
Lemma history_linked : forall h s t, forallb no_inverse h = true -> linked s t ->
  linked (fst (plays rnd quad solve s h)) (fst (plays rnd quad solve t (filter is_add h))).
Proof.
  intros h s t. rewrite !plays_fst. revert s t. induction h as [|e h IH]; intros s t N K; [exact K|]. cbn [forallb] in N. apply andb_true_iff in N as [N1 N2].
  pose proof (play_linked e s t N1 K) as P. cbn [filter fold_left]. destruct (is_add e); [cbn [fold_left]|]; apply IH; assumption.
Qed.
Lemma linked_velocity : forall s t x y, linked s t -> snd (play rnd quad solve s (Velocity x y)) = snd (play rnd quad solve t (Velocity x y)).
Proof.
  intros s t x y [S K]. cbn [play]. unfold compute_velocity, refreshed. destruct K as [[R1 R2]|[[R1 [R2 K]]|[K1 _]]].
  - rewrite R1, R2, (solving_same quad solve s t S). destruct (solving_sigma quad solve t); reflexivity.
  - rewrite R1, R2, K. reflexivity.
  - subst. reflexivity.
Qed.
Lemma start_linked : forall u alpha, linked (new_system u alpha) (new_system u alpha).
Proof. intros. split; [apply same_sys_refl|]. right. right. repeat split. Qed.
(** what is returned does not depend on what was asked before *)
Lemma velocity_history : forall u alpha h x y, forallb no_inverse h = true ->
  velocity_after rnd quad solve u alpha h x y = velocity_after rnd quad solve u alpha (filter is_add h) x y.
Proof. intros. unfold velocity_after, after. apply linked_velocity, history_linked; [assumption|apply start_linked]. Qed.
(** the strengths used hold the walls *)
Lemma velocity_solved : forall s x y t v, s_refresh s = true -> compute_velocity quad solve s x y = Ok (t, v) ->
  solved_panels quad solve (s_u s) (s_alpha s) (solid_panels s) = Ok (solid_panels t) /\ v = velocity_with quad (s_u s) (s_alpha s) (solid_panels t) x y.
Proof.
  intros s x y t v R E. unfold compute_velocity, refreshed in E. rewrite R in E. destruct (solving_sigma quad solve s) as [s'|e] eqn:S; cbn [bind] in E; [|discriminate E].
  injection E as <- <-. destruct (solving_ok _ _ S) as [[U [A _]] [_ P]]. split; [exact P|]. rewrite U, A. reflexivity.
Qed.

(** ** the grid *)
Lemma grid_value : forall inside remove s gx gy t g i j, velocity_on_grid quad solve inside remove s gx gy = Ok (t, g) -> (i < length gx)%nat -> (j < length gy)%nat ->
  exists c, nth_error (nth i g []) j = Some c /\
    (c = None <-> remove = true /\ exists o, In o (s_2d t) /\ o_wall o = true /\ inside (o_nodes o) (nth i gx 0) (nth j gy 0) = true)
    /\ (forall v, c = Some v -> compute_velocity quad solve s (nth i gx 0) (nth j gy 0) = Ok (t, v)).
Proof.
  intros inside remove s gx gy t g i j E I J. unfold velocity_on_grid in E. destruct (refreshed quad solve s) as [s'|e] eqn:R; cbn [bind] in E; [|discriminate E]. injection E as <- <-.
  set (cell := fun x y => if (remove && existsb (fun q => inside q x y) (map o_nodes (filter o_wall (s_2d s'))))%bool then None else Some (velocity_with quad (s_u s') (s_alpha s') (solid_panels s') x y)).
  assert (V : nth_error (nth i (map (fun j0 => map (fun i0 => nth j0 (nth i0 (map (fun y => map (fun x => cell x y) gx) gy) []) None) (seq 0 (length gy))) (seq 0 (length gx))) []) j = Some (cell (nth i gx 0) (nth j gy 0))).
  { rewrite nth_indep with (d' := (fun j0 => map (fun i0 => nth j0 (nth i0 (map (fun y => map (fun x => cell x y) gx) gy) []) None) (seq 0 (length gy))) 0%nat) by (rewrite map_length, seq_length; exact I).
    rewrite (map_nth (fun j0 => map (fun i0 => nth j0 (nth i0 (map (fun y => map (fun x => cell x y) gx) gy) []) None) (seq 0 (length gy)))). rewrite seq_nth by exact I. cbn [plus].
    rewrite nth_error_map. replace (nth_error (seq 0 (length gy)) j) with (Some j).
    2: { symmetry. rewrite nth_error_nth' with (d := 0%nat) by (rewrite seq_length; exact J). rewrite seq_nth by exact J. reflexivity. }
    cbn [option_map]. f_equal.
    rewrite nth_indep with (d' := (fun y => map (fun x => cell x y) gx) 0) by (rewrite map_length; exact J).
    rewrite (map_nth (fun y => map (fun x => cell x y) gx)). rewrite nth_indep with (d' := (fun x => cell x (nth j gy 0)) 0) by (rewrite map_length; exact I).
    rewrite (map_nth (fun x => cell x (nth j gy 0))). reflexivity. }
  exists (cell (nth i gx 0) (nth j gy 0)). split; [exact V|]. unfold cell. split.
  - destruct (remove && existsb _ _)%bool eqn:B.
    + split; [|reflexivity]. intros _. apply andb_true_iff in B as [B1 B2]. split; [exact B1|]. apply existsb_exists in B2 as [q [Q1 Q2]]. apply in_map_iff in Q1 as [o [<- O]]. apply filter_In in O as [O1 O2].
      exists o. repeat split; assumption.
    + split; [discriminate|]. intros [B1 [o [O1 [O2 O3]]]]. exfalso. rewrite B1 in B. cbn [andb] in B.
      assert (X : existsb (fun q => inside q (nth i gx 0) (nth j gy 0)) (map o_nodes (filter o_wall (s_2d s'))) = true).
      { apply existsb_exists. exists (o_nodes o). split; [|exact O3]. apply in_map. apply filter_In. split; assumption. }
      congruence.
  - intros v. destruct (remove && existsb _ _)%bool; [discriminate|]. intro Z. injection Z as <-. unfold compute_velocity. rewrite R. reflexivity.
Qed.
End Systems.
