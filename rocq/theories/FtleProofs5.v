From Coq Require Import Reals List Bool ZArith Lia Lra.
From Verif Require Import Res FtleModel FtleSpec FtleProofs FtleProofs2 FtleProofs3 FtleProofs4.
Import ListNotations.
#[local] Open Scope R_scope.

Section Grid.
Variables n m : nat.
Variable moved : nat -> nat -> option vec.
Lemma diff_scale p q c d : c <> 0 -> d <> 0 -> diff p q d = option_map (vscale (c / d)) (diff p q c).
Proof. intros C D. destruct p as [p|]; [|reflexivity]. destruct q as [q|]; [|reflexivity]. cbn. f_equal. vec_tac; field; auto. Qed.
Lemma along_x_scale c d i j : c <> 0 -> d <> 0 -> along_x n moved d i j = option_map (vscale (c / d)) (along_x n moved c i j).
Proof.
  intros C D. unfold along_x. destruct (Nat.eqb i 0); [apply diff_scale; assumption|]. destruct (Nat.eqb i (n - 1)); [apply diff_scale; assumption|].
  replace (c / d) with (2 * c / (2 * d)) by (field; exact D). apply diff_scale; lra.
Qed.
Lemma along_y_scale c d i j : c <> 0 -> d <> 0 -> along_y m moved d i j = option_map (vscale (c / d)) (along_y m moved c i j).
Proof.
  intros C D. unfold along_y. destruct (Nat.eqb j 0); [apply diff_scale; assumption|]. destruct (Nat.eqb j (m - 1)); [apply diff_scale; assumption|].
  replace (c / d) with (2 * c / (2 * d)) by (field; exact D). apply diff_scale; lra.
Qed.
(** with the same step along both axes, all the values are shifted *)
Lemma exponent_shift c d dt i j a b : 0 < c -> 0 < d -> along_x n moved c i j = Some a -> along_y m moved c i j = Some b -> a <> (0, 0) \/ b <> (0, 0) ->
  exists r, exponent n m moved c c dt i j = Some r /\ exponent n m moved d d dt i j = Some (r + / Rabs dt * ln (c / d)).
Proof.
  intros C D X Y N. unfold exponent. rewrite (along_x_scale c d), (along_y_scale c d) by lra. rewrite X, Y. cbn [option_map]. eexists. split; [reflexivity|]. f_equal.
  assert (P : 0 < c / d) by (apply Rdiv_lt_0_compat; assumption). pose proof (top_pos a b N) as T.
  assert (P2 : 0 < (c / d) ^ 2) by (apply pow_lt; exact P). rewrite top_scale by lra. rewrite (ln_sqrt (top_eigenvalue a b)) by exact T. rewrite ln_sqrt by (apply Rmult_lt_0_compat; assumption). rewrite ln_mult by assumption. replace ((c / d) ^ 2) with (c / d * (c / d)) by ring. rewrite ln_mult by assumption. lra.
Qed.
(** masks do not depend on the steps *)
Lemma exponent_masked dx dy ex ey dt i j : exponent n m moved dx dy dt i j = None <-> exponent n m moved ex ey dt i j = None.
Proof.
  assert (H : forall p q c d, diff p q c = None -> diff p q d = None) by (intros [p|] [q|] c d; cbn; auto; discriminate).
  assert (HX : forall c d, along_x n moved c i j = None -> along_x n moved d i j = None).
  { intros c d. unfold along_x. destruct (Nat.eqb i 0); [apply H|]. destruct (Nat.eqb i (n - 1)); apply H. }
  assert (HY : forall c d, along_y m moved c i j = None -> along_y m moved d i j = None).
  { intros c d. unfold along_y. destruct (Nat.eqb j 0); [apply H|]. destruct (Nat.eqb j (m - 1)); apply H. }
  unfold exponent. split; intro K.
  - destruct (along_x n moved dx i j) eqn:X; [|rewrite (HX dx ex X); reflexivity]. destruct (along_y m moved dy i j) eqn:Y; [discriminate K|]. rewrite (HY dy ey Y). destruct (along_x n moved ex i j); reflexivity.
  - destruct (along_x n moved ex i j) eqn:X; [|rewrite (HX ex dx X); reflexivity]. destruct (along_y m moved ey i j) eqn:Y; [discriminate K|]. rewrite (HY ey dy Y). destruct (along_x n moved dx i j); reflexivity.
Qed.
(** a linear flow map *)
Variables (z : zone) (c : R) (w : vec) (l : matrix).
Hypothesis c0 : 0 < c.
Hypothesis N2 : (2 <= n)%nat.
Hypothesis M2 : (2 <= m)%nat.
Hypothesis L : forall i j, (i < n)%nat -> (j < m)%nat -> moved i j = Some (vadd w (apply l (grid_point z c i j))).
Lemma along_x_linear i j : (i < n)%nat -> (j < m)%nat -> along_x n moved c i j = Some (ma l, mc l).
Proof.
  intros I J. unfold along_x. destruct (Nat.eqb_spec i 0) as [->|A]; [|destruct (Nat.eqb_spec i (n - 1)) as [B|B]].
  - rewrite !L by lia. cbn [diff]. f_equal. unfold apply, grid_point. vec_tac; cbn [INR]; field; lra.
  - rewrite !L by lia. cbn [diff]. f_equal. unfold apply, grid_point. replace (INR i) with (INR (i - 1) + 1) by (rewrite <- S_INR; f_equal; lia). vec_tac; field; lra.
  - rewrite !L by lia. cbn [diff]. f_equal. unfold apply, grid_point. replace (INR (i + 1)) with (INR (i - 1) + 1 + 1) by (rewrite <- !S_INR; f_equal; lia). vec_tac; field; lra.
Qed.
Lemma along_y_linear i j : (i < n)%nat -> (j < m)%nat -> along_y m moved c i j = Some (mb l, md l).
Proof.
  intros I J. unfold along_y. destruct (Nat.eqb_spec j 0) as [->|A]; [|destruct (Nat.eqb_spec j (m - 1)) as [B|B]].
  - rewrite !L by lia. cbn [diff]. f_equal. unfold apply, grid_point. vec_tac; cbn [INR]; field; lra.
  - rewrite !L by lia. cbn [diff]. f_equal. unfold apply, grid_point. replace (INR j) with (INR (j - 1) + 1) by (rewrite <- S_INR; f_equal; lia). vec_tac; field; lra.
  - rewrite !L by lia. cbn [diff]. f_equal. unfold apply, grid_point. replace (INR (j + 1)) with (INR (j - 1) + 1 + 1) by (rewrite <- !S_INR; f_equal; lia). vec_tac; field; lra.
Qed.
Lemma exponent_linear dx dy dt i j : (i < n)%nat -> (j < m)%nat -> 0 < dx -> 0 < dy ->
  exponent n m moved dx dy dt i j = Some (/ Rabs dt * ln (sqrt (top_eigenvalue (vscale (c / dx) (ma l, mc l)) (vscale (c / dy) (mb l, md l))))).
Proof.
  intros I J X Y. unfold exponent. rewrite (along_x_scale c dx), (along_y_scale c dy) by lra. rewrite along_x_linear, along_y_linear by assumption. reflexivity.
Qed.
End Grid.
Lemma top_diag x y : 0 <= y <= x -> top_eigenvalue (x, 0) (0, y) = x ^ 2.
Proof.
  intro H. unfold top_eigenvalue. cbn [fst snd]. replace ((x ^ 2 + 0 ^ 2 - (0 ^ 2 + y ^ 2)) ^ 2 + 4 * (x * 0 + 0 * y) ^ 2) with ((x ^ 2 - y ^ 2) ^ 2) by ring.
  rewrite sqrt_pow2 by nra. field.
Qed.
Lemma top_diag' x y : 0 <= x <= y -> top_eigenvalue (x, 0) (0, y) = y ^ 2.
Proof.
  intro H. unfold top_eigenvalue. cbn [fst snd]. replace ((x ^ 2 + 0 ^ 2 - (0 ^ 2 + y ^ 2)) ^ 2 + 4 * (x * 0 + 0 * y) ^ 2) with ((y ^ 2 - x ^ 2) ^ 2) by ring.
  rewrite sqrt_pow2 by nra. field.
Qed.
Definition identity : matrix := mkm 1 0 0 1.
Lemma diag_case dx dy c : 0 < dx -> 0 < dy -> 0 < c -> ln (sqrt (top_eigenvalue (vscale (c / dx) (1, 0)) (vscale (c / dy) (0, 1)))) = ln (c / Rmin dx dy).
Proof.
  intros X Y C. unfold vscale. cbn [fst snd]. rewrite !Rmult_1_r, !Rmult_0_r. assert (PX : 0 < c / dx) by (apply Rdiv_lt_0_compat; assumption). assert (PY : 0 < c / dy) by (apply Rdiv_lt_0_compat; assumption).
  unfold Rmin. destruct (Rle_dec dx dy) as [H|H].
  - rewrite top_diag; [rewrite sqrt_pow2 by lra; reflexivity|]. split; [lra|]. apply Rmult_le_compat_l; [lra|]. apply Rinv_le_contravar; lra.
  - rewrite top_diag'; [rewrite sqrt_pow2 by lra; reflexivity|]. split; [lra|]. apply Rmult_le_compat_l; [lra|]. apply Rinv_le_contravar; lra.
Qed.
Lemma delta_square d : 0 < d -> delta (d, d) = d / sqrt 2.
Proof.
  intro H. unfold delta. cbn [fst snd]. replace (d ^ 2 + d ^ 2) with (2 * d ^ 2) by ring. rewrite sqrt_mult_alt by lra. rewrite sqrt_pow2 by lra.
  assert (S : sqrt 2 * sqrt 2 = 2) by (apply sqrt_sqrt; lra). assert (0 < sqrt 2) by (apply sqrt_lt_R0; lra).
  apply (Rmult_eq_reg_r (sqrt 2)); [|lra]. replace (d / sqrt 2 * sqrt 2) with d by (field; lra). replace (sqrt 2 * d / 2 * sqrt 2) with (sqrt 2 * sqrt 2 * d / 2) by field. rewrite S. field.
Qed.
Lemma ln_half_sqrt d : 0 < d -> ln (delta (d, d) / d) = - ln 2 / 2.
Proof.
  intro H. rewrite delta_square by exact H. assert (0 < sqrt 2) by (apply sqrt_lt_R0; lra). replace (d / sqrt 2 / d) with (/ sqrt 2) by (field; lra).
  rewrite ln_Rinv by assumption. rewrite ln_sqrt by lra. lra.
Qed.

(** ** get_FTLE *)
Lemma get_ftle_ok z rx ry moved dt i j r : get_ftle z rx ry moved dt i j = Ok r <->
  (2 <= length (fst (points z rx ry)))%nat /\ (2 <= length (snd (points z rx ry)))%nat /\
  r = exponent (length (fst (points z rx ry))) (length (snd (points z rx ry))) moved (fst (spacing z rx ry)) (snd (spacing z rx ry)) dt i j.
Proof.
  unfold get_ftle. destruct (spacing z rx ry) as [dx dy]. destruct (points z rx ry) as [xs ys]. cbn [fst snd].
  destruct (Nat.ltb_spec (length xs) 2); [split; [discriminate|lia]|]. destruct (Nat.ltb_spec (length ys) 2); [split; [discriminate|lia]|]. cbn [orb]. split.
  - intro E. injection E as <-. auto.
  - intros (_ & _ & ->). reflexivity.
Qed.
Lemma rest_moved z rx ry dt rel d moved : regular z rx ry -> 0 < hx z -> dt <> 0 -> 0 < rel -> 0 <= d < 1 -> displaced z (fun _ => (0, 0)) rx ry dt rel d moved ->
  forall i j, (i < length (fst (points z rx ry)))%nat -> (j < length (snd (points z rx ry)))%nat -> moved i j = Some (vadd (0, 0) (apply identity (grid_point z (delta (spacing z rx ry)) i j))).
Proof.
  intros Rg H T Rl D Mv i j I J. destruct (Mv i j I J) as [f F]. unfold moved_point in F.
  pose proof (points_inside z rx ry (nth i (fst (points z rx ry)) 0) (nth j (snd (points z rx ry)) 0) Rg (nth_In _ _ I) (nth_In _ _ J)) as W.
  pose proof (points_nth z rx ry i j) as Q. destruct (points z rx ry) as [xs ys]. cbn [fst snd] in *. specialize (Q I J).
  assert (S : displacement z (fun _ => (0, 0)) 2 (nth i xs 0, nth j ys 0) dt rel d = Ok (Some (aim (0, 0) (nth i xs 0, nth j ys 0) dt, false))).
  { apply (uniform_exact z _ (0, 0) (fun _ => eq_refl) 0); try assumption; unfold within, aim, vadd, vscale; cbn [fst snd]; lra. }
  assert (E : aim (0, 0) (nth i xs 0, nth j ys 0) dt = (nth i xs 0, nth j ys 0)) by (unfold aim; vec_tac; ring). rewrite E in S.
  destruct (displacement z (fun _ => (0, 0)) f (nth i xs 0, nth j ys 0) dt rel d) as [r|] eqn:Df; [|discriminate F]. cbn in F. injection F as F.
  destruct r as [[q b]|]; [|discriminate F].
  assert (G : displacement z (fun _ => (0, 0)) (Nat.max f 2) (nth i xs 0, nth j ys 0) dt rel d = Ok (Some (q, b))) by (eapply displacement_more; [|exact Df]; lia).
  apply (displacement_more _ _ 2 (Nat.max f 2)) in S; [|lia]. rewrite G in S. injection S as -> ->. injection F as <-. f_equal.
  rewrite Q. unfold apply, identity. vec_tac; cbn; ring.
Qed.
Lemma ftle_rest z rx ry dt rel d moved i j r : regular z rx ry -> 0 < hx z -> 0 < rel -> 0 <= d < 1 -> dt <> 0 ->
  displaced z (fun _ => (0, 0)) rx ry dt rel d moved -> get_ftle z rx ry moved dt i j = Ok r -> (i < length (fst (points z rx ry)))%nat -> (j < length (snd (points z rx ry)))%nat ->
  r = Some (/ Rabs dt * ln (delta (spacing z rx ry) / Rmin (fst (spacing z rx ry)) (snd (spacing z rx ry)))).
Proof.
  intros Rg H Rl D T Mv G I J. apply get_ftle_ok in G as (N & M & ->). destruct (spacing_pos z rx ry Rg) as [X Y]. pose proof (delta_pos _ X) as P.
  rewrite (exponent_linear _ _ moved z (delta (spacing z rx ry)) (0, 0) identity P N M (rest_moved z rx ry dt rel d moved Rg H T Rl D Mv)); try assumption.
  do 2 f_equal. apply diag_case; assumption.
Qed.
