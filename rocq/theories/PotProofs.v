(** * PotProofs: the geometry of the panels. *)
From Coq Require Import Reals List Bool Lra Lia Psatz.
From Verif Require Import Res PotModel PotSpec.
Import ListNotations.
#[local] Open Scope R_scope.

Lemma pow2_gt_0 : forall x, x <> 0 -> 0 < x ^ 2.
Proof. intros x H. replace (x ^ 2) with (x²) by (unfold Rsqr; ring). apply Rsqr_pos_lt, H. Qed.
Lemma dist2_nonneg : forall a b, 0 <= dist2 a b.
Proof. intros a b. unfold dist2. pose proof (pow2_ge_0 (fst a - fst b)). pose proof (pow2_ge_0 (snd a - snd b)). lra. Qed.
Lemma dist2_pos : forall a b, a <> b -> 0 < dist2 a b.
Proof.
  intros [a1 a2] [b1 b2] H. unfold dist2. cbn [fst snd].
  destruct (Req_dec a1 b1) as [->|N]; [destruct (Req_dec a2 b2) as [->|N]; [exfalso; apply H; reflexivity|]|].
  - assert (0 < (a2 - b2) ^ 2) by (apply pow2_gt_0; lra). pose proof (pow2_ge_0 (b1 - b1)). lra.
  - assert (0 < (a1 - b1) ^ 2) by (apply pow2_gt_0; lra). pose proof (pow2_ge_0 (a2 - b2)). lra.
Qed.
Lemma p_len_dist : forall p, p_len p = sqrt (dist2 (p_a p) (p_b p)).
Proof. intros p. unfold p_len, dist2. f_equal. ring. Qed.
Lemma p_len_pos : forall p, p_a p <> p_b p -> 0 < p_len p.
Proof. intros p H. rewrite p_len_dist. apply sqrt_lt_R0, dist2_pos, H. Qed.
Lemma p_len_sq : forall p, p_len p ^ 2 = dist2 (p_a p) (p_b p).
Proof. intros p. rewrite p_len_dist. rewrite pow2_sqrt; [reflexivity|apply dist2_nonneg]. Qed.
Lemma ratio_bound : forall p, p_a p <> p_b p -> -1 <= (snd (p_b p) - snd (p_a p)) / p_len p <= 1.
Proof.
  intros p H. pose proof (p_len_pos p H) as L. pose proof (p_len_sq p) as S. unfold dist2 in S.
  set (d := snd (p_b p) - snd (p_a p)) in *.
  assert (Q : d ^ 2 <= p_len p ^ 2) by (rewrite S; unfold d; pose proof (pow2_ge_0 (fst (p_a p) - fst (p_b p))); nra).
  assert (A : - p_len p <= d <= p_len p) by (split; nra).
  split.
  - apply Rmult_le_reg_r with (p_len p); [exact L|]. unfold Rdiv. rewrite Rmult_assoc, Rinv_l by lra. lra.
  - apply Rmult_le_reg_r with (p_len p); [exact L|]. unfold Rdiv. rewrite Rmult_assoc, Rinv_l by lra. lra.
Qed.
Lemma sqrt_rest : forall p, p_a p <> p_b p -> sqrt (1 - ((snd (p_b p) - snd (p_a p)) / p_len p)²) = Rabs (fst (p_b p) - fst (p_a p)) / p_len p.
Proof.
  intros p H. pose proof (p_len_pos p H) as L. pose proof (p_len_sq p) as S. unfold dist2 in S.
  replace (1 - ((snd (p_b p) - snd (p_a p)) / p_len p)²) with (((fst (p_b p) - fst (p_a p)) / p_len p)²).
  - rewrite sqrt_Rsqr_abs. unfold Rdiv. rewrite Rabs_mult, (Rabs_pos_eq (/ p_len p)); [reflexivity|]. apply Rlt_le, Rinv_0_lt_compat, L.
  - unfold Rsqr. apply Rmult_eq_reg_r with (p_len p ^ 2); [|nra]. field_simplify; [|lra|lra]. nra.
Qed.
(** cos and sin of the orientation are the components of the normal *)
Lemma panel_normal : forall p, p_a p <> p_b p -> (cos (p_beta p), sin (p_beta p)) = normal_of (p_a p) (p_b p).
Proof.
  intros p H. pose proof (p_len_pos p H) as L. pose proof (ratio_bound p H) as B. pose proof (sqrt_rest p H) as Q.
  unfold normal_of. rewrite <- p_len_dist. unfold p_beta.
  destruct (Rle_dec (fst (p_b p) - fst (p_a p)) 0) as [D|D].
  - rewrite cos_acos by exact B. rewrite sin_acos by exact B. f_equal. rewrite Q. rewrite Rabs_left1 by exact D. unfold Rdiv. f_equal. ring.
  - assert (B' : -1 <= - (snd (p_b p) - snd (p_a p)) / p_len p <= 1).
    { replace (- (snd (p_b p) - snd (p_a p)) / p_len p) with (- ((snd (p_b p) - snd (p_a p)) / p_len p)) by (field; lra). lra. }
    rewrite (Rplus_comm PI), neg_cos, neg_sin. rewrite cos_acos by exact B'. rewrite sin_acos by exact B'.
    f_equal; [field; lra|].
    replace ((- (snd (p_b p) - snd (p_a p)) / p_len p)²) with (((snd (p_b p) - snd (p_a p)) / p_len p)²).
    + rewrite Q. rewrite Rabs_pos_eq by lra. field. lra.
    + unfold Rsqr. field. lra.
Qed.
Lemma panel_cos : forall p, p_a p <> p_b p -> cos (p_beta p) = (snd (p_b p) - snd (p_a p)) / p_len p.
Proof. intros p H. pose proof (panel_normal p H) as N. unfold normal_of in N. rewrite <- p_len_dist in N. injection N as N _. exact N. Qed.
Lemma panel_sin : forall p, p_a p <> p_b p -> sin (p_beta p) = (fst (p_a p) - fst (p_b p)) / p_len p.
Proof. intros p H. pose proof (panel_normal p H) as N. unfold normal_of in N. rewrite <- p_len_dist in N. injection N as _ N. exact N. Qed.
(** ** the influence is the one of sources along the panel *)
Lemma influence_of_sources : forall p x y dx dy s, p_a p <> p_b p ->
  integrand x y p dx dy s =
  let q := along (p_a p) (p_b p) (s / p_len p) in
  ((x - fst q) * dx + (y - snd q) * dy) / dist2 (x, y) q.
Proof.
  intros p x y dx dy s H. pose proof (p_len_pos p H) as L. unfold integrand, p_sin, p_cos. cbv zeta.
  f_equal.
  - rewrite panel_cos, panel_sin by exact H. unfold along. cbn [fst snd]. field. lra.
  - f_equal. rewrite panel_cos, panel_sin by exact H. unfold along, dist2. cbn [fst snd]. field. lra.
Qed.
(** the normal is a unit vector, orthogonal to the panel *)
Lemma normal_unit : forall a b, a <> b -> scalar (normal_of a b) (normal_of a b) = 1 /\ scalar (normal_of a b) (fst b - fst a, snd b - snd a) = 0.
Proof.
  intros a b H. pose proof (dist2_pos a b H) as D. pose proof (sqrt_lt_R0 _ D) as L. unfold scalar, normal_of. cbn [fst snd]. split.
  - assert (S : sqrt (dist2 a b) ^ 2 = dist2 a b) by (apply pow2_sqrt; lra). unfold dist2 in S at 2.
    apply Rmult_eq_reg_r with (sqrt (dist2 a b) ^ 2); [|nra]. field_simplify; [|lra]. nra.
  - field. lra.
Qed.
Lemma wall_velocity_tangent : forall p, p_a p <> p_b p -> scalar (p_vector p) (normal_of (p_a p) (p_b p)) = 0.
Proof. intros p H. rewrite <- panel_normal by exact H. unfold scalar, p_vector. cbn [fst snd]. ring. Qed.

(** ** the distance to the line of a panel *)
Lemma line_dist_area : forall p x y, p_a p <> p_b p -> line_dist p x y = Rabs (area2 (p_a p) (p_b p) x y) / sqrt (dist2 (p_a p) (p_b p)).
Proof.
  intros p x y H. pose proof (p_len_pos p H) as L. rewrite <- p_len_dist. unfold line_dist.
  destruct (Req_EM_T (fst (p_a p)) (fst (p_b p))) as [E|E].
  - assert (LL : p_len p = Rabs (snd (p_b p) - snd (p_a p))).
    { unfold p_len. rewrite E. replace ((fst (p_b p) - fst (p_b p)) ^ 2 + (snd (p_b p) - snd (p_a p)) ^ 2) with ((snd (p_b p) - snd (p_a p))²) by (unfold Rsqr; ring). apply sqrt_Rsqr_abs. }
    unfold area2, p_xc. rewrite E. replace ((fst (p_b p) - fst (p_b p)) * (y - snd (p_a p)) - (snd (p_b p) - snd (p_a p)) * (x - fst (p_b p))) with (- ((snd (p_b p) - snd (p_a p)) * (x - fst (p_b p)))) by ring.
    rewrite Rabs_Ropp, Rabs_mult, <- LL. replace ((fst (p_b p) + fst (p_b p)) / 2) with (fst (p_b p)) by field. field. lra.
  - destruct (Req_EM_T (snd (p_a p)) (snd (p_b p))) as [F|F].
    + assert (LL : p_len p = Rabs (fst (p_b p) - fst (p_a p))).
      { unfold p_len. rewrite F. replace ((fst (p_b p) - fst (p_a p)) ^ 2 + (snd (p_b p) - snd (p_b p)) ^ 2) with ((fst (p_b p) - fst (p_a p))²) by (unfold Rsqr; ring). apply sqrt_Rsqr_abs. }
      unfold area2, p_yc. rewrite F. replace ((fst (p_b p) - fst (p_a p)) * (y - snd (p_b p)) - (snd (p_b p) - snd (p_b p)) * (x - fst (p_a p))) with ((fst (p_b p) - fst (p_a p)) * (y - snd (p_b p))) by ring.
      rewrite Rabs_mult, <- LL. replace ((snd (p_b p) + snd (p_b p)) / 2) with (snd (p_b p)) by field. field. lra.
    + cbv zeta. set (dx := fst (p_b p) - fst (p_a p)). set (dy := snd (p_b p) - snd (p_a p)).
      assert (DX : dx <> 0) by (unfold dx; lra).
      assert (P1 : 0 < 1 + (dy / dx) ^ 2) by (pose proof (pow2_ge_0 (dy / dx)); lra).
      assert (K : p_len p = Rabs dx * sqrt (1 + (dy / dx) ^ 2)).
      { unfold p_len. fold dx dy. rewrite <- sqrt_Rsqr_abs, <- sqrt_mult_alt by (unfold Rsqr; nra). f_equal. unfold Rsqr. field. exact DX. }
      assert (A0 : 0 < Rabs dx) by (apply Rabs_pos_lt, DX).
      assert (S0 : 0 < sqrt (1 + (dy / dx) ^ 2)) by (apply sqrt_lt_R0, P1).
      rewrite K. replace (area2 (p_a p) (p_b p) x y) with (- (dx * (dy / dx * x - y + (snd (p_b p) - dy / dx * fst (p_b p))))).
      * rewrite Rabs_Ropp, Rabs_mult. field. lra.
      * unfold area2. fold dx dy. apply Rminus_diag_uniq. unfold dx, dy in *. field. exact DX.
Qed.
(** a point is taken as on a panel exactly when ... *)
Lemma on_panel_iff : forall p x y, p_a p <> p_b p ->
  (on_panel p x y = true <-> dist2 (along (p_a p) (p_b p) (/ 2)) (x, y) <= dist2 (p_a p) (p_b p) / 2 /\ Rabs (area2 (p_a p) (p_b p) x y) < / 10000 * sqrt (dist2 (p_a p) (p_b p))).
Proof.
  intros p x y H. pose proof (p_len_pos p H) as L. unfold on_panel. rewrite p_len_sq, line_dist_area by exact H. rewrite <- p_len_dist.
  replace ((p_xc p - x) ^ 2 + (p_yc p - y) ^ 2) with (dist2 (along (p_a p) (p_b p) (/ 2)) (x, y)) by (unfold dist2, along, p_xc, p_yc; cbn [fst snd]; field).
  assert (E : forall z, z / p_len p < / 10000 <-> z < / 10000 * p_len p).
  { intros z. split; intro Z.
    - apply Rmult_lt_compat_r with (r := p_len p) in Z; [|exact L]. replace (z / p_len p * p_len p) with z in Z by (field; lra). exact Z.
    - apply Rmult_lt_reg_r with (p_len p); [exact L|]. replace (z / p_len p * p_len p) with z by (field; lra). exact Z. }
  destruct (Rlt_dec (dist2 (p_a p) (p_b p) / 2) (dist2 (along (p_a p) (p_b p) (/ 2)) (x, y))) as [A|A].
  - split; [discriminate|]. intros [B _]. lra.
  - destruct (Rlt_dec (Rabs (area2 (p_a p) (p_b p) x y) / p_len p) (/ 10000)) as [B|B]; (split; intro C).
    + split; [lra|]. apply E, B.
    + reflexivity.
    + discriminate.
    + exfalso. apply B, E, C.
Qed.
Lemma area2_along : forall a b t, area2 a b (fst (along a b t)) (snd (along a b t)) = 0.
Proof. intros. unfold area2, along. cbn [fst snd]. ring. Qed.
Lemma mid_along : forall a b t, dist2 (along a b (/ 2)) (along a b t) = (t - / 2) ^ 2 * dist2 a b.
Proof. intros. unfold dist2, along. cbn [fst snd]. field. Qed.
(** on the line of the panel *)
Lemma on_panel_line : forall p t, p_a p <> p_b p -> (t - / 2) ^ 2 <= / 2 -> let q := along (p_a p) (p_b p) t in on_panel p (fst q) (snd q) = true.
Proof.
  intros p t H T q. apply on_panel_iff; [exact H|]. pose proof (dist2_pos _ _ H) as D. pose proof (sqrt_lt_R0 _ D) as L. split.
  - rewrite <- surjective_pairing. unfold q. rewrite mid_along. nra.
  - unfold q. rewrite area2_along, Rabs_R0. nra.
Qed.
Lemma on_panel_segment : forall p t, p_a p <> p_b p -> 0 <= t <= 1 -> let q := along (p_a p) (p_b p) t in on_panel p (fst q) (snd q) = true.
Proof. intros p t H T. apply on_panel_line; [exact H|]. nra. Qed.
(** the velocity given to any point of a panel is tangent to some panel that is taken as holding it *)
Lemma velocity_on_wall : forall quad u alpha ps x y, Forall (fun p => p_a p <> p_b p) ps -> existsb (fun p => on_panel p x y) ps = true ->
  exists p, In p ps /\ on_panel p x y = true /\ velocity_with quad u alpha ps x y = p_vector p /\ scalar (velocity_with quad u alpha ps x y) (normal_of (p_a p) (p_b p)) = 0.
Proof.
  intros quad u alpha ps x y W E. unfold velocity_with. destruct (find (fun p => on_panel p x y) ps) as [p|] eqn:F.
  - apply find_some in F as [I F]. exists p. repeat split; try assumption. apply wall_velocity_tangent. rewrite Forall_forall in W. apply W, I.
  - exfalso. apply existsb_exists in E as [p [I E]]. pose proof (find_none _ _ F p I) as Z. cbn in Z. congruence.
Qed.
