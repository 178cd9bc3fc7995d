(** * PotProofs5: the scaling with the free stream, the sources, the reversed normals, and a square. *)
From Coq Require Import Reals List Bool Lra Lia Psatz.
From Verif Require Import Res PotModel PotSpec PotProofs PotProofs2 PotProofs3 PotProofs4.
Import ListNotations.
#[local] Open Scope R_scope.

(** ** scaling *)
Definition scale_panel (k : R) (p : panel) : panel := mkpanel (p_a p) (p_b p) (k * p_sigma p) (k * p_vt p).
Lemma times_scale : forall k row s, times row (map (Rmult k) s) = k * times row s.
Proof. induction row as [|x row IH]; intros [|y s]; cbn; try ring. rewrite IH. ring. Qed.
Lemma list_scale : forall k ps qs, map blank qs = map blank ps -> map p_sigma qs = map (Rmult k) (map p_sigma ps) -> map p_vt qs = map (Rmult k) (map p_vt ps) -> qs = map (scale_panel k) ps.
Proof.
  induction ps as [|p ps IH]; intros [|q qs] B S V; cbn in *; try discriminate B; [reflexivity|].
  injection B as B1 B2 B3. injection S as S1 S2. injection V as V1 V2. f_equal; [|apply IH; assumption].
  destruct q. unfold scale_panel. cbn in *. congruence.
Qed.
Section Scale.
Variable quad : (R -> R) -> R -> R -> R.
Variable solve : list (list R) -> list R -> res (list R).
Hypothesis EX : exact_solve solve.
Lemma solved_scaled : forall k u alpha ps q1 qk, determined (normal_matrix quad ps) ->
  solved_panels quad solve u alpha ps = Ok q1 -> solved_panels quad solve (k * u) alpha ps = Ok qk -> qk = map (scale_panel k) q1.
Proof.
  intros k u alpha ps q1 qk D E1 Ek.
  destruct (solved_length quad solve EX _ _ _ _ E1) as [L1 B1]. destruct (solved_length quad solve EX _ _ _ _ Ek) as [Lk Bk].
  destruct (solved_facts quad solve EX _ _ _ _ E1) as [N1 T1]. destruct (solved_facts quad solve EX _ _ _ _ Ek) as [Nk Tk].
  assert (NM : forall qs, map blank qs = map blank ps -> normal_matrix quad qs = normal_matrix quad ps) by (intros qs B; rewrite <- normal_blank, B, normal_blank; reflexivity).
  assert (TM : forall qs, map blank qs = map blank ps -> tangent_matrix quad qs = tangent_matrix quad ps) by (intros qs B; rewrite <- tangent_blank, B, tangent_blank; reflexivity).
  assert (BM : forall (f : panel -> R) qs, (forall p, f (blank p) = f p) -> map blank qs = map blank ps -> map f qs = map f ps).
  { intros f qs H B. transitivity (map f (map blank qs)); [rewrite map_map; apply map_ext; intro; symmetry; apply H|]. rewrite B, map_map. apply map_ext, H. }
  assert (CM : forall (G : list R -> panel -> R) qs M, (forall r p, G r (blank p) = G r p) -> map blank qs = map blank ps -> map (fun rp => G (fst rp) (snd rp)) (combine M qs) = map (fun rp => G (fst rp) (snd rp)) (combine M ps)).
  { intros G qs M H B. transitivity (map (fun rp => G (fst rp) (snd rp)) (combine M (map blank qs))); [|rewrite B]; symmetry; [symmetry|];
      [rewrite (combine_blank_l (fun p r => G r p) qs) by (intros; apply H); reflexivity|rewrite (combine_blank_l (fun p r => G r p) ps) by (intros; apply H); reflexivity]. }
  rewrite (NM _ B1), (BM (fun p => - u * cos (alpha - p_beta p)) q1) in N1 by (reflexivity || exact B1).
  rewrite (NM _ Bk), (BM (fun p => - (k * u) * cos (alpha - p_beta p)) qk) in Nk by (reflexivity || exact Bk).
  rewrite (TM _ B1), (CM (fun r p => times r (map p_sigma q1) + u * sin (alpha - p_beta p))) in T1 by (reflexivity || exact B1).
  rewrite (TM _ Bk), (CM (fun r p => times r (map p_sigma qk) + k * u * sin (alpha - p_beta p))) in Tk by (reflexivity || exact Bk).
  assert (LA : length (normal_matrix quad ps) = length ps) by (unfold normal_matrix; rewrite map_length, indexed_length; reflexivity).
  assert (S : map p_sigma qk = map (Rmult k) (map p_sigma q1)).
  { apply D; [rewrite map_length, LA; exact Lk|rewrite !map_length, LA; exact L1|].
    clear - N1 Nk. revert N1 Nk. generalize (normal_matrix quad ps) as A. generalize ps as l. induction l as [|p l IH]; intros A N1 Nk; cbn [map] in *; inversion N1; inversion Nk; subst; constructor.
    - match goal with H : _ :: _ = _ :: _ |- _ => injection H as -> -> end. rewrite times_scale.
      match goal with H : times ?y (map p_sigma q1) = _ |- _ => rewrite H end. match goal with H : times ?y (map p_sigma qk) = _ |- _ => rewrite H end. ring.
    - match goal with H : _ :: _ = _ :: _ |- _ => injection H as -> -> end. apply IH; assumption. }
  apply list_scale; [congruence|exact S|]. rewrite Tk, T1, map_map. apply map_ext. intros [r p]. cbn [fst snd]. rewrite S, times_scale. ring.
Qed.
Lemma find_scaled : forall k x y ps, find (fun p => on_panel p x y) (map (scale_panel k) ps) = option_map (scale_panel k) (find (fun p => on_panel p x y) ps).
Proof. induction ps as [|p ps IH]; [reflexivity|]. cbn [map find]. change (on_panel (scale_panel k p) x y) with (on_panel p x y). destruct (on_panel p x y); [reflexivity|exact IH]. Qed.
Lemma sum_scaled : forall k x y dx dy ps, sum_list (map (fun p => p_sigma p * integral quad x y p dx dy) (map (scale_panel k) ps)) = k * sum_list (map (fun p => p_sigma p * integral quad x y p dx dy) ps).
Proof. intros. induction ps as [|p ps IH]; cbn [map sum_list]; [ring|]. rewrite IH. change (integral quad x y (scale_panel k p) dx dy) with (integral quad x y p dx dy). cbn [p_sigma scale_panel]. ring. Qed.
Lemma velocity_scaled : forall k u alpha ps x y,
  let v := velocity_with quad u alpha ps x y in
  let w := velocity_with quad (k * u) alpha (map (scale_panel k) ps) x y in
  w = (k * fst v, k * snd v) \/ v = (0, 0) \/ w = (0, 0).
Proof.
  intros k u alpha ps x y. cbv zeta. unfold velocity_with. rewrite find_scaled. destruct (find (fun p => on_panel p x y) ps) as [p|]; cbn [option_map].
  - left. unfold p_vector, scale_panel. cbn [p_vt fst snd]. change (p_beta (mkpanel (p_a p) (p_b p) (k * p_sigma p) (k * p_vt p))) with (p_beta p). f_equal; ring.
  - cbv zeta. rewrite !sum_scaled.
    repeat match goal with |- context [Rlt_dec ?a ?b] => destruct (Rlt_dec a b); try (right; left; reflexivity); try (right; right; reflexivity) end.
    left. cbn [fst snd]. f_equal; ring.
Qed.
Lemma flow_scaled : forall k u alpha o1 o2 x y t v t' w,
  determined (normal_matrix quad (solid_panels (mksys u alpha o1 o2 true))) ->
  compute_velocity quad solve (mksys u alpha o1 o2 true) x y = Ok (t, v) -> compute_velocity quad solve (mksys (k * u) alpha o1 o2 true) x y = Ok (t', w) ->
  w = (k * fst v, k * snd v) \/ v = (0, 0) \/ w = (0, 0).
Proof.
  intros k u alpha o1 o2 x y t v t' w D E1 Ek. apply (velocity_solved quad solve EX) in E1 as [S1 ->]; [|reflexivity]. apply (velocity_solved quad solve EX) in Ek as [Sk ->]; [|reflexivity].
  cbn [s_u s_alpha] in *. change (solid_panels (mksys (k * u) alpha o1 o2 true)) with (solid_panels (mksys u alpha o1 o2 true)) in Sk.
  rewrite (solved_scaled k u alpha _ _ _ D S1 Sk). apply velocity_scaled.
Qed.
End Scale.

(** ** sources *)
Lemma no_point_source : forall rnd s l wall r, add_object rnd s 0 l wall r = Err TypeErr.
Proof. reflexivity. Qed.
Lemma wall_panels_app : forall a b, wall_panels (a ++ b) = wall_panels a ++ wall_panels b.
Proof. intros. unfold wall_panels. apply flat_map_app. Qed.
Lemma put_app : forall a b l, length l = length (wall_panels a) -> put_panels l (a ++ b) = put_panels l a ++ put_panels [] b.
Proof.
  induction a as [|o a IH]; intros b l L.
  - destruct l; [reflexivity|discriminate L].
  - unfold wall_panels in L. cbn [flat_map] in L. cbn [app put_panels]. fold (wall_panels a) in L. destruct (o_wall o); cbn [app] in *.
    + rewrite app_length in L. rewrite IH by (rewrite skipn_length; lia). reflexivity.
    + rewrite IH by exact L. reflexivity.
Qed.
Lemma new_obj_wall : forall rnd l w r o, new_obj rnd l w r = Ok o -> o_wall o = w.
Proof. intros rnd l w r o E. unfold new_obj in E. destruct (refine rnd l r); cbn [bind] in E; [|discriminate E]. destruct (panels_of _); cbn [bind] in E; [|discriminate E]. injection E as <-. reflexivity. Qed.
Lemma velocity_nonwall : forall quad solve, exact_solve solve -> forall rnd s d l r t x y, s_refresh s = true -> add_object rnd s d l false r = Ok t ->
  snd (play rnd quad solve t (Velocity x y)) = snd (play rnd quad solve s (Velocity x y)).
Proof.
  intros quad solve EX rnd s d l r t x y R E. assert (SP : solid_panels t = solid_panels s /\ s_u t = s_u s /\ s_alpha t = s_alpha s /\ s_refresh t = true).
  { unfold add_object in E. destruct d as [|[|[|d]]]; [discriminate E| | |discriminate E].
    - destruct (Nat.ltb r 1); [discriminate E|]. destruct (new_obj rnd l false r) as [o|e] eqn:O; cbn [bind] in E; [|discriminate E]. injection E as <-. repeat split.
      unfold solid_panels. cbn [s_1d s_2d]. rewrite wall_panels_app. unfold wall_panels at 2. cbn [flat_map]. rewrite (new_obj_wall _ _ _ _ _ O). rewrite !app_nil_r. reflexivity.
    - destruct (new_obj rnd (closed_path l) false r) as [o|e] eqn:O; cbn [bind] in E; [|discriminate E]. injection E as <-. repeat split.
      unfold solid_panels. cbn [s_1d s_2d]. rewrite wall_panels_app. unfold wall_panels at 3. cbn [flat_map]. rewrite (new_obj_wall _ _ _ _ _ O). rewrite !app_nil_r. reflexivity. }
  destruct SP as [SP [U [A R']]]. cbn [play].
  destruct (compute_velocity quad solve t x y) as [[t' v]|e] eqn:Et; destruct (compute_velocity quad solve s x y) as [[s' w]|e'] eqn:Es; cbn [snd].
  - apply (velocity_solved quad solve EX) in Et as [St ->]; [|exact R']. apply (velocity_solved quad solve EX) in Es as [Ss ->]; [|exact R].
    rewrite SP, U, A, Ss in St. injection St as St. rewrite U, A, St. reflexivity.
  - exfalso. apply (velocity_solved quad solve EX) in Et as [St _]; [|exact R']. unfold compute_velocity, refreshed, solving_sigma in Es. rewrite R in Es. rewrite SP, U, A in St. rewrite St in Es. discriminate Es.
  - exfalso. apply (velocity_solved quad solve EX) in Es as [Ss _]; [|exact R]. unfold compute_velocity, refreshed, solving_sigma in Et. rewrite R' in Et. rewrite SP, U, A, Ss in Et. discriminate Et.
  - unfold compute_velocity, refreshed, solving_sigma in Et, Es. rewrite R' in Et. rewrite R in Es. rewrite SP, U, A in Et.
    destruct (solved_panels quad solve (s_u s) (s_alpha s) (solid_panels s)); cbn [bind] in *; [discriminate Et|]. congruence.
Qed.

(** ** reversed normals *)
Lemma panels_blank : forall l ps, panels_of l = Ok ps -> Forall (fun p => p_sigma p = 0 /\ p_vt p = 0) ps.
Proof.
  induction l as [|a l IH]; intros ps E; [injection E as <-; constructor|]. destruct l as [|b l]; [injection E as <-; constructor|].
  cbn [panels_of] in E. cbn [panels_of] in IH. destruct (new_panel a b) as [p|e] eqn:P; cbn [bind] in E; [|discriminate E].
  destruct (match l with [] => Ok [] | _ => _ end) as [q|e] eqn:Q in E; cbn [bind] in E; [|discriminate E]. injection E as <-. constructor; [|apply IH; exact Q].
  apply blank_new in P as ->. split; reflexivity.
Qed.
Lemma silent_panels : forall quad u alpha ps x y, Forall (fun p => p_sigma p = 0 /\ p_vt p = 0) ps -> Rabs u <= 10 ^ 30 ->
  velocity_with quad u alpha ps x y = if existsb (fun p => on_panel p x y) ps then (0, 0) else (u * cos alpha, u * sin alpha).
Proof.
  intros quad u alpha ps x y Z U. unfold velocity_with. rewrite Forall_forall in Z. destruct (find (fun p => on_panel p x y) ps) as [p|] eqn:F.
  - apply find_some in F as [I F]. replace (existsb (fun p0 => on_panel p0 x y) ps) with true by (symmetry; apply existsb_exists; exists p; split; assumption).
    destruct (Z p I) as [_ V]. unfold p_vector. rewrite V. f_equal; ring.
  - replace (existsb (fun p0 => on_panel p0 x y) ps) with false.
    2: { symmetry. apply not_true_is_false. intro T. apply existsb_exists in T as [p [I T]]. pose proof (find_none _ _ F p I) as N. cbn in N. congruence. }
    assert (S : forall dx dy, sum_list (map (fun p => p_sigma p * integral quad x y p dx dy) ps) = 0).
    { intros dx dy. clear F. induction ps as [|p ps IH]; [reflexivity|]. cbn [map sum_list]. rewrite IH by (intros q I; apply Z; right; exact I).
      destruct (Z p (or_introl eq_refl)) as [-> _]. ring. }
    cbv zeta. rewrite !S, !Rmult_0_r, !Rplus_0_r.
    assert (B : forall c, -1 <= c <= 1 -> Rabs (u * c) <= 10 ^ 30).
    { intros c C. rewrite Rabs_mult. assert (Rabs c <= 1) by (apply Rabs_le; lra). pose proof (Rabs_pos c). pose proof (Rabs_pos u). nra. }
    destruct (Rlt_dec (10 ^ 30) (Rabs (u * cos alpha))) as [X|X]; [exfalso; pose proof (B (cos alpha) (COS_bound alpha)); lra|].
    destruct (Rlt_dec (10 ^ 30) (Rabs (u * sin alpha))) as [Y|Y]; [exfalso; pose proof (B (sin alpha) (SIN_bound alpha)); lra|]. reflexivity.
Qed.
Lemma plays_app : forall rnd quad solve h1 h2 s, fst (plays rnd quad solve s (h1 ++ h2)) = fst (plays rnd quad solve (fst (plays rnd quad solve s h1)) h2).
Proof. intros. rewrite !plays_fst. apply fold_left_app. Qed.
Lemma ends_snoc : forall l (a b : pt), ends_of (l ++ [a; b]) = ends_of (l ++ [a]) ++ [(a, b)].
Proof.
  induction l as [|x l IH]; intros a b; [reflexivity|]. destruct l as [|y l]; [reflexivity|].
  change (ends_of ((x :: y :: l) ++ [a; b])) with ((x, y) :: ends_of ((y :: l) ++ [a; b])). rewrite IH. reflexivity.
Qed.
Lemma no_empty_rev : forall l, no_empty_segment l -> no_empty_segment (rev l).
Proof.
  induction l as [|a l IH]; intro H; [exact H|]. destruct l as [|b l]; [constructor|]. unfold no_empty_segment in H. cbn [ends_of] in H. inversion H as [|? ? H1 H2]; subst.
  cbn [rev]. rewrite <- app_assoc. unfold no_empty_segment. cbn [app]. rewrite ends_snoc. apply Forall_app. split; [apply (IH H2)|]. constructor; [|constructor].
  cbn [fst snd] in *. intro E. apply H1. symmetry. exact E.
Qed.
Lemma silent_solid : forall rnd quad solve s o o' x y,
  s_1d s = [] -> s_2d s = [o] -> o_wall o = true -> s_refresh s = false -> inverse_normals o = Ok o' -> Rabs (s_u s) <= 10 ^ 30 ->
  let t := fst (play rnd quad solve s (Inverse 0)) in
  snd (play rnd quad solve t (Velocity x y)) =
  Some (Ok (if existsb (fun p => on_panel p x y) (solid_panels t) then (0, 0) else (s_u s * cos (s_alpha s), s_u s * sin (s_alpha s)))).
Proof.
  intros rnd quad solve s o o' x y S1 S2 W R I U. cbn [play]. rewrite S2. cbn [nth_error]. rewrite I. cbn [fst].
  unfold compute_velocity, refreshed. cbn [s_refresh]. rewrite R. cbn [bind snd]. do 2 f_equal. unfold solid_panels. cbn [s_1d s_2d s_u s_alpha]. rewrite S1. cbn [replace_at wall_panels flat_map app].
  assert (P : o_wall o' = true /\ Forall (fun p => p_sigma p = 0 /\ p_vt p = 0) (o_panels o')).
  { unfold inverse_normals in I. cbv zeta in I. destruct (panels_of (rev (o_nodes o))) as [ps|e] eqn:P; cbn [bind] in I; [|discriminate I]. injection I as <-. split; [exact W|]. apply panels_blank with (1 := P). }
  destruct P as [-> P]. rewrite app_nil_r. apply silent_panels; assumption.
Qed.
(** after a computation and reversed normals, the only solid of a flow is forgotten *)
Lemma forgotten_solid : forall rnd quad solve, exact_solve solve -> forall u alpha l r x0 y0 v0 x y,
  (2 <= length l)%nat -> (1 <= r)%nat -> no_empty_segment (closed_path l) -> Rabs u <= 10 ^ 30 ->
  velocity_after rnd quad solve u alpha [Add 2 l true r] x0 y0 = Some (Ok v0) ->
  let h := [Add 2 l true r; Velocity x0 y0; Inverse 0] in
  existsb (fun p => on_panel p x y) (solid_panels (after rnd quad solve u alpha h)) = false ->
  velocity_after rnd quad solve u alpha h x y = Some (Ok (u * cos alpha, u * sin alpha)).
Proof.
  intros rnd quad solve EX u alpha l r x0 y0 v0 x y L R H U V h. unfold velocity_after, after in *. rewrite !plays_fst in *. cbn [fold_left h] in *.
  destruct (add_solid rnd (new_system u alpha) l true r L R H) as [m [A [K _]]]. 
  set (s1 := fst (play rnd quad solve (new_system u alpha) (Add 2 l true r))) in *.
  assert (S1 : s1 = mksys u alpha [] [mkobj m (map (fun e => mkpanel (fst e) (snd e) 0 0) (ends_of m)) true] true) by (unfold s1; cbn [play]; rewrite A; reflexivity).
  clearbody s1. cbn [play] in V.
  set (s2 := fst (play rnd quad solve s1 (Velocity x0 y0))).
  assert (S2 : same_sys s2 s1 /\ s_refresh s2 = false).
  { unfold s2. cbn [play]. unfold compute_velocity, refreshed in *. rewrite S1 in V |- *. cbn [s_refresh] in *. destruct (solving_sigma quad solve _) as [s'|e] eqn:E; cbn [bind snd] in *; [|discriminate V].
    cbn [fst]. destruct (solving_ok quad solve EX _ _ E) as [X [Y _]]. split; assumption. }
  clearbody s2. rewrite S1 in S2. destruct S2 as [[SU [SA [F1 F2]]] RF]. cbn [s_u s_alpha s_1d s_2d] in *.
  inversion F1 as [Z1|]; subst. inversion F2 as [|o o1 os os1 SO F3 Z2 Z3]; subst. inversion F3; subst.
  destruct SO as [N [W _]]. cbn [o_nodes o_wall] in N, W.
  assert (NE : no_empty_segment (rev (o_nodes o))) by (rewrite N; apply no_empty_rev; apply cut_no_empty with (1 := K); exact H).
  intro Q. rewrite (silent_solid rnd quad solve s2 o (mkobj (rev (o_nodes o)) (map (fun e => mkpanel (fst e) (snd e) 0 0) (ends_of (rev (o_nodes o)))) (o_wall o)) x y); try assumption; try (symmetry; assumption).
  - rewrite Q. reflexivity.
  - unfold inverse_normals. cbv zeta. rewrite panels_of_ok by exact NE. reflexivity.
Qed.
