(** * PbiProofs2: angles of velocities, the winding number and the detection of critical cells. *)
From Coq Require Import Reals Lra List ZArith Lia Bool FinFun.
From Verif Require Import PbiModel PbiSpec PbiProofs.
Import ListNotations.
#[local] Open Scope R_scope.

(** ** the angle of a velocity *)
Lemma sqsum_pos : forall a b : R, a <> 0 \/ b <> 0 -> 0 < a * a + b * b.
Proof.
  intros a b [H|H]; [pose proof (Rsqr_pos_lt a H) as P; pose proof (Rle_0_sqr b)|pose proof (Rsqr_pos_lt b H) as P; pose proof (Rle_0_sqr a)]; unfold Rsqr in *; lra.
Qed.
Lemma norm_pos : forall u, fst u <> 0 \/ snd u <> 0 -> 0 < norm u.
Proof. intros u H. apply sqrt_lt_R0. apply sqsum_pos. exact H. Qed.
Lemma norm_sq : forall u, norm u * norm u = dot u u.
Proof. intros u. apply sqrt_sqrt. unfold dot. pose proof (Rle_0_sqr (fst u)). pose proof (Rle_0_sqr (snd u)). unfold Rsqr in *. lra. Qed.
Lemma ratio_bound : forall x y k, 0 < k -> k * k = x * x + y * y -> -1 <= x / k <= 1.
Proof.
  intros x y k K E. pose proof (Rle_0_sqr y) as Y. unfold Rsqr in Y.
  assert (B : - k <= x <= k) by (split; nra).
  split; apply (Rmult_le_reg_r k); try exact K; unfold Rdiv; rewrite Rmult_assoc, Rinv_l by lra; lra.
Qed.
Lemma theta_polar : forall u, fst u <> 0 \/ snd u <> 0 ->
  0 <= theta_of (fst u) (snd u) < 2 * PI /\ norm u * cos (theta_of (fst u) (snd u)) = fst u /\ norm u * sin (theta_of (fst u) (snd u)) = snd u.
Proof.
  intros [x y] H. pose proof (norm_pos (x, y) H) as K. pose proof (norm_sq (x, y)) as E. unfold dot in E. cbn [fst snd] in *.
  set (k := norm (x, y)) in *. unfold theta_of. change (magnitude x y) with k.
  destruct (Req_EM_T k 0); [lra|].
  pose proof (ratio_bound x y k K E) as B. set (q := x / k) in *.
  assert (Q : k * q = x) by (unfold q; field; lra).
  pose proof (acos_bound q) as AB. pose proof (cos_acos q B) as CA. pose proof (sin_acos q B) as SA. pose proof PI_RGT_0 as PP.
  assert (S2 : k * sqrt (1 - q²) = Rabs y).
  { assert (0 <= 1 - q²) by (unfold Rsqr; nra). apply Rsqr_inj.
    - apply Rmult_le_pos; [lra|apply sqrt_pos].
    - apply Rabs_pos.
    - rewrite <- Rsqr_abs, Rsqr_mult, Rsqr_sqrt by assumption. unfold Rsqr in *. rewrite <- Q in E. nra. }
  destruct (Rlt_dec y 0) as [Y|Y].
  - assert (A0 : acos q <> 0).
    { intros A0. rewrite A0, cos_0 in CA. rewrite <- Q, <- CA in E. nra. }
    rewrite cos_minus, sin_minus, cos_2PI, sin_2PI, CA, SA.
    rewrite Rabs_left in S2 by exact Y. split; [lra|split; [lra|nra]].
  - rewrite CA, SA. rewrite Rabs_right in S2 by lra. split; [lra|split; lra].
Qed.
Lemma wrap_cs : forall d, cos (wrap d) = cos d /\ sin (wrap d) = sin d.
Proof.
  assert (M : forall d, cos (d - 2 * PI) = cos d /\ sin (d - 2 * PI) = sin d) by (intros; rewrite cos_minus, sin_minus, cos_2PI, sin_2PI; split; ring).
  assert (P : forall d, cos (d + 2 * PI) = cos d /\ sin (d + 2 * PI) = sin d) by (intros; rewrite cos_plus, sin_plus, cos_2PI, sin_2PI; split; ring).
  assert (L : forall d, cos (if Rlt_dec d (- PI) then d + 2 * PI else d) = cos d /\ sin (if Rlt_dec d (- PI) then d + 2 * PI else d) = sin d).
  { intros d. destruct (Rlt_dec d (- PI)); [apply P|split; reflexivity]. }
  intros d. unfold wrap. destruct (Rlt_dec PI d).
  - destruct (L (d - 2 * PI)) as [A B]. rewrite A, B. apply M.
  - apply L.
Qed.
Notation TH u := (theta_of (fst u) (snd u)).
Lemma W_trig : forall u v, fst u <> 0 \/ snd u <> 0 -> fst v <> 0 \/ snd v <> 0 ->
  norm u * norm v * cos (W (TH u) (TH v)) = dot u v /\ norm u * norm v * sin (W (TH u) (TH v)) = cross u v.
Proof.
  intros u v U V. destruct (theta_polar u U) as (_ & Cu & Su). destruct (theta_polar v V) as (_ & Cv & Sv).
  unfold W. destruct (wrap_cs (TH v - TH u)) as [C S]. rewrite C, S, cos_minus, sin_minus. unfold dot, cross.
  clear C S. revert Cu Su Cv Sv. generalize (TH u) as a, (TH v) as b. intros a b Cu Su Cv Sv.
  rewrite <- Cu, <- Su, <- Cv, <- Sv. split; ring.
Qed.
Lemma W_bound : forall u v, fst u <> 0 \/ snd u <> 0 -> fst v <> 0 \/ snd v <> 0 -> - PI <= W (TH u) (TH v) <= PI.
Proof. intros u v U V. destruct (theta_polar u U) as (A & _). destruct (theta_polar v V) as (B & _). pose proof PI_RGT_0. apply wrap_bound. lra. Qed.
Lemma clear_nonzero : forall u v, clear_edge u v -> (fst u <> 0 \/ snd u <> 0) /\ (fst v <> 0 \/ snd v <> 0).
Proof.
  intros u v H. split.
  - destruct (H 0 ltac:(lra)) as [A|A]; [left|right]; intros E; apply A; rewrite E; ring.
  - destruct (H 1 ltac:(lra)) as [A|A]; [left|right]; intros E; apply A; rewrite E; ring.
Qed.
Lemma W_clear : forall u v, clear_edge u v -> signed_angle u v (W (TH u) (TH v)).
Proof.
  intros u v H. destruct (clear_nonzero u v H) as [U V]. pose proof (W_bound u v U V) as B. pose proof (W_trig u v U V) as T.
  split; [|exact T]. pose proof PI_RGT_0 as P.
  destruct (theta_polar u U) as (Au & Cu & Su). destruct (theta_polar v V) as (Av & Cv & Sv).
  pose proof (norm_pos u U) as NU. pose proof (norm_pos v V) as NV.
  assert (OP : cos (TH v) = - cos (TH u) -> sin (TH v) = - sin (TH u) -> False).
  { intros C S. rewrite C in Cv. rewrite S in Sv.
    destruct (H (norm u / (norm u + norm v))) as [Z|Z].
    - split; [apply Rmult_le_pos; [lra|left; apply Rinv_0_lt_compat; lra]|].
      apply (Rmult_le_reg_r (norm u + norm v)); [lra|]. unfold Rdiv. rewrite Rmult_assoc, Rinv_l by lra. lra.
    - apply Z. clear - Cu Cv NU NV. revert Cu Cv. generalize (cos (TH u)) as k. intros k Cu Cv. rewrite <- Cu, <- Cv. field. lra.
    - apply Z. clear - Su Sv NU NV. revert Su Sv. generalize (sin (TH u)) as k. intros k Su Sv. rewrite <- Su, <- Sv. field. lra. }
  assert (N1 : W (TH u) (TH v) <> PI).
  { intros E. assert (D : TH v = TH u + PI) by (unfold W, wrap in E; destruct (Rlt_dec PI (TH v - TH u)); [destruct (Rlt_dec (TH v - TH u - 2 * PI) (- PI)); lra|destruct (Rlt_dec (TH v - TH u) (- PI)); lra]).
    apply OP; rewrite D; [apply neg_cos|apply neg_sin]. }
  assert (N2 : W (TH u) (TH v) <> - PI).
  { intros E. assert (D : TH u = TH v + PI) by (unfold W, wrap in E; destruct (Rlt_dec PI (TH v - TH u)); [destruct (Rlt_dec (TH v - TH u - 2 * PI) (- PI)); lra|destruct (Rlt_dec (TH v - TH u) (- PI)); lra]).
    apply OP; rewrite D; [rewrite neg_cos|rewrite neg_sin]; ring. }
  lra.
Qed.
Lemma cos1_zero : forall x, - (2 * PI) < x < 2 * PI -> cos x = 1 -> x = 0.
Proof.
  intros x B C. replace x with (2 * (x / 2)) in C by field. rewrite cos_2a_sin in C.
  assert (S : sin (x / 2) = 0) by nra.
  destruct (Rtotal_order x 0) as [L|[E|G]]; [|exact E|].
  - pose proof (sin_gt_0 (- (x / 2)) ltac:(lra) ltac:(lra)) as K. rewrite sin_neg in K. lra.
  - pose proof (sin_gt_0 (x / 2) ltac:(lra) ltac:(lra)). lra.
Qed.
Lemma signed_angle_unique : forall u v a b, (fst u <> 0 \/ snd u <> 0) -> (fst v <> 0 \/ snd v <> 0) ->
  signed_angle u v a -> signed_angle u v b -> a = b.
Proof.
  intros u v a b U V (A1 & A2 & A3) (B1 & B2 & B3). pose proof (norm_pos u U) as NU. pose proof (norm_pos v V) as NV.
  assert (K : 0 < norm u * norm v) by (apply Rmult_lt_0_compat; assumption).
  assert (C : cos a = cos b) by (apply (Rmult_eq_reg_l (norm u * norm v)); lra).
  assert (S : sin a = sin b) by (apply (Rmult_eq_reg_l (norm u * norm v)); lra).
  enough (a - b = 0) by lra. apply cos1_zero; [lra|]. rewrite cos_minus, C, S. pose proof (sin2_cos2 b) as I. unfold Rsqr in I. lra.
Qed.

(** ** the winding number *)
Lemma around_ext : forall a b m n i, (0 < m)%nat -> (i < n)%nat ->
  (forall p q, inside m n p -> inside m n q -> neighbours p q -> a p q = b p q) -> around a m i = around b m i.
Proof.
  intros a b m n i M N H. unfold around. f_equal; [f_equal; [f_equal|]|]; apply sumn_ext; intros k K; apply H; unfold inside, neighbours; cbn [fst snd]; lia.
Qed.
Lemma regular_W : forall f, regular f -> forall p q, inside (rows f) (cols f) p -> inside (rows f) (cols f) q -> neighbours p q ->
  signed_angle (vel f p) (vel f q) (Wth (ftheta f) p q).
Proof.
  intros f [R1 R2] p q P Q NB. unfold Wth. destruct (R1 (fst p) (snd p)) as [_ E1]; try apply P. destruct (R1 (fst q) (snd q)) as [_ E2]; try apply Q.
  rewrite E1, E2. apply (W_clear (vel f p) (vel f q)). apply R2; assumption.
Qed.
Lemma pbi_winding_lemma : forall f ang i, regular f -> (0 < rows f)%nat -> (0 < i < cols f)%nat ->
  (forall p q, inside (rows f) (cols f) p -> inside (rows f) (cols f) q -> neighbours p q -> signed_angle (vel f p) (vel f q) (ang p q)) ->
  nth i (pbi_x (ftheta f) (rows f) (cols f)) 0 = around ang (rows f) i / (2 * PI).
Proof.
  intros f ang i R M [I0 I] A. destruct (pbi_x_nth (ftheta f) (rows f) (cols f) i I M) as [E _]. rewrite E.
  destruct i; [lia|]. f_equal. apply (around_ext _ _ _ (cols f)); [exact M|exact I|].
  intros p q P Q NB. pose proof (proj2 R p q P Q NB) as CE. destruct (clear_nonzero _ _ CE) as [U V].
  apply (signed_angle_unique (vel f p) (vel f q)); [exact U|exact V|apply regular_W; assumption|apply A; assumption].
Qed.

(** ** half planes *)
Lemma close_int : forall x y (z : Z), - (2 * PI) < x - y < 2 * PI -> x = y + 2 * PI * IZR z -> x = y.
Proof.
  intros x y z B E. pose proof PI_RGT_0 as P.
  assert (z = 0)%Z as ->; [|lra].
  assert (- 1 < IZR z) by (apply (Rmult_lt_reg_l (2 * PI)); lra). assert (IZR z < 1) by (apply (Rmult_lt_reg_l (2 * PI)); lra).
  apply lt_IZR in H0. apply (lt_IZR (-1)) in H. lia.
Qed.
Lemma cos_nonneg_quarter : forall x, - PI <= x <= PI -> 0 <= cos x -> - (PI / 2) <= x <= PI / 2.
Proof.
  intros x B C. pose proof PI_RGT_0 as P. split.
  - apply Rnot_lt_le. intros L. pose proof (cos_lt_0 (- x) ltac:(lra) ltac:(lra)) as K. rewrite cos_neg in K. lra.
  - apply Rnot_lt_le. intros L. pose proof (cos_lt_0 x ltac:(lra) ltac:(lra)). lra.
Qed.
Lemma half_edge : forall e u v, fst e <> 0 \/ snd e <> 0 -> clear_edge u v -> 0 <= dot e u -> 0 <= dot e v ->
  W (TH u) (TH v) = W (TH e) (TH v) - W (TH e) (TH u).
Proof.
  intros e u v Ee C Du Dv. destruct (clear_nonzero u v C) as [U V]. destruct (W_clear u v C) as [B _].
  assert (Q : forall w, fst w <> 0 \/ snd w <> 0 -> 0 <= dot e w -> - (PI / 2) <= W (TH e) (TH w) <= PI / 2).
  { intros w Hw D. apply cos_nonneg_quarter; [apply W_bound; assumption|].
    destruct (W_trig e w Ee Hw) as [T _]. pose proof (norm_pos e Ee). pose proof (norm_pos w Hw).
    assert (0 < norm e * norm w) by (apply Rmult_lt_0_compat; assumption).
    apply (Rmult_le_reg_l (norm e * norm w)); [assumption|]. lra. }
  pose proof (Q u U Du) as Bu. pose proof (Q v V Dv) as Bv. pose proof PI_RGT_0 as P.
  destruct (W_int (TH u) (TH v)) as [z1 E1]. destruct (W_int (TH e) (TH v)) as [z2 E2]. destruct (W_int (TH e) (TH u)) as [z3 E3].
  apply (close_int _ _ (z1 - z2 + z3)); [lra|]. rewrite plus_IZR, minus_IZR. rewrite E1, E2, E3. ring.
Qed.
Definition cell_clear (v : nat -> nat -> R * R) (i j : nat) : Prop :=
  clear_edge (v (S i) j) (v i j) /\ clear_edge (v i j) (v i (S j)) /\ clear_edge (v i (S j)) (v (S i) (S j)) /\ clear_edge (v (S i) (S j)) (v (S i) j).
Lemma half_cell : forall e v th i j, fst e <> 0 \/ snd e <> 0 -> cell_clear v i j ->
  (forall a b, (a < 2)%nat -> (b < 2)%nat -> th (i + a)%nat (j + b)%nat = TH (v (i + a)%nat (j + b)%nat) /\ 0 <= dot e (v (i + a)%nat (j + b)%nat)) ->
  cell_index th i j = 0.
Proof.
  intros e v th i j E (C1 & C2 & C3 & C4) H. rewrite cell_index_W.
  destruct (H 0%nat 0%nat ltac:(lia) ltac:(lia)) as [T00 D00]. destruct (H 0%nat 1%nat ltac:(lia) ltac:(lia)) as [T01 D01].
  destruct (H 1%nat 0%nat ltac:(lia) ltac:(lia)) as [T10 D10]. destruct (H 1%nat 1%nat ltac:(lia) ltac:(lia)) as [T11 D11].
  replace (i + 0)%nat with i in * by lia. replace (j + 0)%nat with j in * by lia. replace (i + 1)%nat with (S i) in * by lia. replace (j + 1)%nat with (S j) in * by lia.
  unfold cellW. rewrite T00, T01, T10, T11. rewrite (half_edge e _ _ E C1), (half_edge e _ _ E C2), (half_edge e _ _ E C3), (half_edge e _ _ E C4) by assumption.
  unfold Rdiv. ring.
Qed.
(** four corners that turn in the same direction *)
Lemma turn_cell : forall s v th i j, s = 1 \/ s = -1 -> cell_clear v i j ->
  (forall a b, (a < 2)%nat -> (b < 2)%nat -> th (i + a)%nat (j + b)%nat = TH (v (i + a)%nat (j + b)%nat)) ->
  0 < s * cross (v (S i) j) (v i j) -> 0 < s * cross (v i j) (v i (S j)) -> 0 < s * cross (v i (S j)) (v (S i) (S j)) -> 0 < s * cross (v (S i) (S j)) (v (S i) j) ->
  cell_index th i j = s.
Proof.
  intros s v th i j HS (C1 & C2 & C3 & C4) H X1 X2 X3 X4.
  pose proof (H 0%nat 0%nat ltac:(lia) ltac:(lia)) as T00. pose proof (H 0%nat 1%nat ltac:(lia) ltac:(lia)) as T01.
  pose proof (H 1%nat 0%nat ltac:(lia) ltac:(lia)) as T10. pose proof (H 1%nat 1%nat ltac:(lia) ltac:(lia)) as T11.
  replace (i + 0)%nat with i in * by lia. replace (j + 0)%nat with j in * by lia. replace (i + 1)%nat with (S i) in * by lia. replace (j + 1)%nat with (S j) in * by lia.
  assert (K : forall u w, clear_edge u w -> 0 < s * cross u w -> 0 < s * W (TH u) (TH w) < PI).
  { intros u w C X. destruct (W_clear u w C) as (B & _ & SN). destruct (clear_nonzero u w C) as [U V].
    pose proof (norm_pos u U). pose proof (norm_pos w V). assert (P : 0 < norm u * norm w) by (apply Rmult_lt_0_compat; assumption).
    set (a := W (TH u) (TH w)) in *.
    assert (G : 0 < s * sin a). { apply (Rmult_lt_reg_l (norm u * norm w)); [exact P|]. rewrite <- SN in X. lra. }
    destruct HS as [-> | ->].
    - assert (0 < a) by (apply Rnot_le_lt; intros L; destruct (Req_dec a 0) as [-> |N]; [rewrite sin_0 in G; lra|]; pose proof (sin_gt_0 (- a) ltac:(lra) ltac:(lra)) as Y; rewrite sin_neg in Y; lra). lra.
    - assert (a < 0) by (apply Rnot_le_lt; intros L; destruct (Req_dec a 0) as [-> |N]; [rewrite sin_0 in G; lra|]; pose proof (sin_gt_0 a ltac:(lra) ltac:(lra)); lra). lra. }
  pose proof (K _ _ C1 X1) as B1. pose proof (K _ _ C2 X2) as B2. pose proof (K _ _ C3 X3) as B3. pose proof (K _ _ C4 X4) as B4.
  assert (Z0 : exists z : Z, cell_index th i j = IZR z) by (apply (pbi_x_nth (fun a b => th (i + a)%nat (j + b)%nat) 2 2 1); lia).
  destruct Z0 as [z E]. rewrite E. rewrite cell_index_W in E. pose proof PI_RGT_0 as P.
  assert (C : cellW th i j = 2 * PI * IZR z) by (rewrite <- E; field; lra).
  unfold cellW in C. rewrite T00, T01, T10, T11 in C.
  assert (S4 : 0 < s * (2 * PI * IZR z) < 4 * PI) by (rewrite <- C; lra).
  destruct HS as [-> | ->].
  - assert (0 < IZR z) by (apply (Rmult_lt_reg_l (2 * PI)); lra). assert (IZR z < 2) by (apply (Rmult_lt_reg_l (2 * PI)); lra).
    apply lt_IZR in H1. apply (lt_IZR 0) in H0. f_equal. lia.
  - assert (-2 < IZR z) by (apply (Rmult_lt_reg_l (2 * PI)); lra). assert (IZR z < 0) by (apply (Rmult_lt_reg_l (2 * PI)); lra).
    apply lt_IZR in H1. apply (lt_IZR (-2)) in H0. f_equal. lia.
Qed.

(** ** the filter *)
Lemma vel_cell_clear : forall f i j, regular f -> (S i < rows f)%nat -> (S j < cols f)%nat -> cell_clear (fun a b => vel f (a, b)) i j.
Proof.
  intros f i j [_ R] I J. unfold cell_clear. repeat split; apply R; unfold inside, neighbours; cbn [fst snd]; lia.
Qed.
Lemma crosses0_false : forall v i j, crosses0 v i j = false ->
  (forall a b, (a < 2)%nat -> (b < 2)%nat -> 0 < v (i + a)%nat (j + b)%nat) \/ (forall a b, (a < 2)%nat -> (b < 2)%nat -> v (i + a)%nat (j + b)%nat <= 0).
Proof.
  intros v i j H. unfold crosses0, pos01 in H.
  assert (X : forall (P : R -> Prop), P (v i j) -> P (v i (S j)) -> P (v (S i) j) -> P (v (S i) (S j)) -> forall a b, (a < 2)%nat -> (b < 2)%nat -> P (v (i + a)%nat (j + b)%nat)).
  { intros P A B C D a b Ha Hb. destruct a as [|[|]]; [| |lia]; destruct b as [|[|]]; try lia; rewrite ?Nat.add_0_r, ?Nat.add_1_r; assumption. }
  destruct (Rlt_dec 0 (v i j)); destruct (Rlt_dec 0 (v (S i) j)); destruct (Rlt_dec 0 (v i (S j))); destruct (Rlt_dec 0 (v (S i) (S j))); cbn in H; try discriminate H.
  - left. apply (X (fun x => 0 < x)); assumption.
  - right. apply (X (fun x => x <= 0)); lra.
Qed.
Lemma regular_theta : forall f, regular f -> forall i j, (S i < rows f)%nat -> (S j < cols f)%nat -> forall a b, (a < 2)%nat -> (b < 2)%nat ->
  ftheta f (i + a)%nat (j + b)%nat = TH (vel f (i + a, j + b)%nat).
Proof. intros f [R _] i j I J a b A B. apply R; lia. Qed.
Lemma filter_sound : forall f i j, regular f -> (S i < rows f)%nat -> (S j < cols f)%nat -> cell_filter f i j = false -> cell_index (ftheta f) i j = 0.
Proof.
  intros f i j R I J F. pose proof (vel_cell_clear f i j R I J) as CC.
  assert (M : cell_masked f i j = false).
  { unfold cell_masked. destruct R as [R _]. rewrite !(fun a b A B => proj1 (R a b A B)) by lia. reflexivity. }
  unfold cell_filter in F. rewrite M in F. cbn in F. apply andb_false_iff in F.
  assert (G : exists e, (fst e <> 0 \/ snd e <> 0) /\ forall a b, (a < 2)%nat -> (b < 2)%nat -> 0 <= dot e (vel f (i + a, j + b)%nat)).
  { destruct F as [F|F]; apply crosses0_false in F; destruct F as [F|F].
    - exists (1, 0). split; [cbn; lra|]. intros a b A B. specialize (F a b A B). unfold dot, vel; cbn [fst snd]. lra.
    - exists (-1, 0). split; [cbn; lra|]. intros a b A B. specialize (F a b A B). unfold dot, vel; cbn [fst snd]. lra.
    - exists (0, 1). split; [cbn; lra|]. intros a b A B. specialize (F a b A B). unfold dot, vel; cbn [fst snd]. lra.
    - exists (0, -1). split; [cbn; lra|]. intros a b A B. specialize (F a b A B). unfold dot, vel; cbn [fst snd]. lra. }
  destruct G as (e & Ee & G). apply (half_cell e (fun a b => vel f (a, b)) (ftheta f) i j Ee CC).
  intros a b A B. split; [apply regular_theta; assumption|apply G; assumption].
Qed.

(** ** the list of critical points *)
Lemma pbi_cell : forall f i j, pbi_x (ftheta (cell_of f i j)) 2 2 = [0; cell_index (ftheta f) i j].
Proof.
  intros f i j. unfold cell_index. cbn [ftheta cell_of].
  set (l := pbi_x (fun a b => ftheta f (i + a)%nat (j + b)%nat) 2 2).
  assert (L : length l = 2%nat) by apply pbi_x_length.
  assert (Z : nth 0 l 0 = 0) by (apply (pbi_x_nth (fun a b => ftheta f (i + a)%nat (j + b)%nat) 2 2 0); lia).
  destruct l as [|x [|y [|]]]; cbn in L; try discriminate L. cbn in Z |- *. rewrite Z. reflexivity.
Qed.
Definition nzb (x : R) : bool := if Req_EM_T x 0 then false else true.
Definition centre (f : vf) (p : nat * nat) : R * R :=
  (fax f (snd p) + (fax f 1 - fax f 0) / 2, fay f (fst p) + (fay f 1 - fay f 0) / 2).
Lemma struct_cell : forall f i j, struct_number (cell_of f i j) = ((if nzb (cell_index (ftheta f) i j) then 1 else 0)%nat, (if nzb (cell_index (ftheta f) i j) then 1 else 0)%nat).
Proof.
  intros f i j. unfold struct_number. cbn [rows cols cell_of Nat.eqb andb]. rewrite (pbi_cell f i j). cbn [changes].
  unfold nzb. replace (cell_index (ftheta f) i j - 0) with (cell_index (ftheta f) i j) by ring.
  destruct (Req_EM_T (cell_index (ftheta f) i j) 0); reflexivity.
Qed.
Lemma cells_in : forall m n p, In p (cells m n) <-> (S (fst p) < m /\ S (snd p) < n)%nat.
Proof.
  intros m n [i j]. unfold cells. rewrite in_flat_map. cbn [fst snd]. split.
  - intros (x & X & H). apply in_map_iff in H. destruct H as (y & E & Y). injection E as -> ->. apply in_seq in X. apply in_seq in Y. lia.
  - intros [A B]. exists i. split; [apply in_seq; lia|]. apply in_map_iff. exists j. split; [reflexivity|apply in_seq; lia].
Qed.
Lemma cells_nodup : forall m n, NoDup (cells m n).
Proof.
  intros m n. unfold cells. generalize (m - 1)%nat as k. intros k.
  enough (G : forall s, NoDup (flat_map (fun i => map (fun j => (i, j)) (seq 0 (n - 1))) (seq s k))) by apply G.
  induction k as [|k IH]; intros s; cbn [seq flat_map]; [constructor|].
  assert (A : forall (l1 l2 : list (nat * nat)), NoDup l1 -> NoDup l2 -> (forall x, In x l1 -> ~ In x l2) -> NoDup (l1 ++ l2)).
  { intros l1 l2 N1 N2 D. induction N1 as [|x l1 X N1 IH1]; [exact N2|]. cbn. constructor.
    - rewrite in_app_iff. intros [K|K]; [contradiction|apply (D x); [left; reflexivity|exact K]].
    - apply IH1. intros y Y. apply D. right. exact Y. }
  apply A; [|apply IH|].
  - apply FinFun.Injective_map_NoDup; [|apply seq_NoDup]. intros x y E. injection E. auto.
  - intros [x y] H K. apply in_map_iff in H. destruct H as (z & E & _). injection E as <- <-.
    apply in_flat_map in K. destruct K as (w & Hw & K). apply in_map_iff in K. destruct K as (z' & E & _). injection E as -> _. apply in_seq in Hw. lia.
Qed.
Lemma cp_cells_regular : forall eig f, regular f ->
  cp_cells eig f = map (fun p => (centre f p, cp_type eig (cell_of f (fst p) (snd p)))) (filter (fun p => nzb (cell_index (ftheta f) (fst p) (snd p))) (cells (rows f) (cols f))).
Proof.
  intros eig f R. unfold cp_cells.
  assert (G : forall l, (forall p, In p l -> In p (cells (rows f) (cols f))) ->
    flat_map (fun p : nat * nat => let '(i, j) := p in
      if cell_filter f i j then
        let c := cell_of f i j in let k := struct_number c in
        if (Nat.eqb (fst k) 0 && Nat.eqb (snd k) 0)%bool then [] else [((fax c 0 + (fax f 1 - fax f 0) / 2, fay c 0 + (fay f 1 - fay f 0) / 2), cp_type eig c)]
      else []) l =
    map (fun p => (centre f p, cp_type eig (cell_of f (fst p) (snd p)))) (filter (fun p => nzb (cell_index (ftheta f) (fst p) (snd p))) l)); [|apply G; auto].
  induction l as [|[i j] l IH]; intros H; [reflexivity|].
  specialize (IH ltac:(intros; apply H; right; assumption)). cbv zeta in IH |- *. cbn [flat_map filter] in IH |- *. rewrite IH. clear IH. cbn [fst snd].
  rewrite struct_cell. cbn [fst snd].
  assert (In (i, j) (cells (rows f) (cols f))) as B by (apply H; left; reflexivity). apply cells_in in B. cbn [fst snd] in B.
  destruct (cell_filter f i j) eqn:F.
  - destruct (nzb (cell_index (ftheta f) i j)); [|reflexivity].
    cbn [Nat.eqb andb app map fst snd]. unfold centre. cbn [fst snd fax fay cell_of]. rewrite !Nat.add_0_r. reflexivity.
  - rewrite (filter_sound f i j R) by (try apply B; exact F). unfold nzb. destruct (Req_EM_T 0 0); [reflexivity|lra].
Qed.
Lemma cp_type_saddle : forall eig f i j, is_saddle (cp_type eig (cell_of f i j)) = if Req_EM_T (cell_index (ftheta f) i j) (-1) then true else false.
Proof.
  intros eig f i j. unfold cp_type. rewrite (pbi_cell f i j). cbn [nth].
  change (- (1)) with (-1). destruct (Req_EM_T (cell_index (ftheta f) i j) (-1)) as [E|E]; [reflexivity|].
  destruct (eig _ _ _ _) as [l1 l2]. destruct (Req_EM_T (Rabs (snd l1) + Rabs (snd l2)) 0).
  - destruct (Rle_dec 0 (fst l1)); reflexivity.
  - destruct (Rlt_dec _ 0); reflexivity.
Qed.

(** ** the count *)
Lemma regular_angles : forall f, regular f -> forall i j, (i < rows f)%nat -> (j < cols f)%nat -> (1 < rows f)%nat -> 0 <= ftheta f i j < 2 * PI.
Proof.
  intros f [R1 R2] i j I J M. destruct (R1 i j I J) as [_ E]. rewrite E.
  assert (NZ : fst (vel f (i, j)) <> 0 \/ snd (vel f (i, j)) <> 0).
  { destruct i as [|i].
    - apply (clear_nonzero _ (vel f (1, j)%nat)). apply R2; unfold inside, neighbours; cbn [fst snd]; lia.
    - apply (clear_nonzero _ (vel f (i, j)%nat)). apply R2; unfold inside, neighbours; cbn [fst snd]; lia. }
  apply (theta_polar (vel f (i, j)) NZ).
Qed.
Lemma rsum_flat : forall (A : Type) (g : A -> list R) l, rsum (flat_map g l) = rsum (map (fun x => rsum (g x)) l).
Proof. induction l as [|x l IH]; [reflexivity|]. cbn. rewrite rsum_app, IH. reflexivity. Qed.
Lemma rsum_seq : forall n (f : nat -> R), rsum (map f (seq 0 n)) = sumn n f.
Proof. induction n as [|n IH]; intros f; [reflexivity|]. rewrite map_seq_snoc, rsum_app, IH. cbn. ring. Qed.
Lemma map_flat_map : forall (A B C : Type) (h : B -> C) (g : A -> list B) l, map h (flat_map g l) = flat_map (fun x => map h (g x)) l.
Proof. induction l as [|x l IH]; [reflexivity|]. cbn. rewrite map_app, IH. reflexivity. Qed.
Lemma cells_sum : forall (g : nat -> nat -> R) m n, rsum (map (fun p => g (fst p) (snd p)) (cells m n)) = sumn (m - 1) (fun r => sumn (n - 1) (fun c => g r c)).
Proof.
  intros g m n. unfold cells. rewrite map_flat_map.
  rewrite rsum_flat, rsum_seq. apply sumn_ext. intros r _. rewrite map_map, rsum_seq. reflexivity.
Qed.
Lemma cp_count_lemma : forall eig f, regular f -> (0 < rows f)%nat -> (0 < cols f)%nat ->
  INR (count_type (fun t => negb (is_saddle t)) (cp_cells eig f)) - INR (count_type is_saddle (cp_cells eig f)) =
  nth (cols f - 1) (pbi_x (ftheta f) (rows f) (cols f)) 0.
Proof.
  intros eig f R M N. rewrite pbi_x_cells by lia. rewrite <- cells_sum. rewrite cp_cells_regular by exact R.
  assert (G : forall l, (forall p, In p l -> In p (cells (rows f) (cols f))) ->
    let k := map (fun p => (centre f p, cp_type eig (cell_of f (fst p) (snd p)))) (filter (fun p => nzb (cell_index (ftheta f) (fst p) (snd p))) l) in
    INR (count_type (fun t => negb (is_saddle t)) k) - INR (count_type is_saddle k) = rsum (map (fun p => cell_index (ftheta f) (fst p) (snd p)) l)); [|apply G; auto].
  induction l as [|[i j] l IH]; intros H; [cbn; ring|].
  specialize (IH ltac:(intros; apply H; right; assumption)). cbv zeta in *. cbn [map rsum filter fst snd]. rewrite <- IH. clear IH.
  set (k := map _ (filter _ l)).
  assert (In (i, j) (cells (rows f) (cols f))) as B by (apply H; left; reflexivity). apply cells_in in B. cbn [fst snd] in B.
  assert (V : cell_index (ftheta f) i j = -1 \/ cell_index (ftheta f) i j = 0 \/ cell_index (ftheta f) i j = 1).
  { apply cell_range. intros a b A1 B1. apply regular_angles; [exact R|lia|lia|lia]. }
  pose proof (cp_type_saddle eig f i j) as TS.
  destruct V as [V|[V|V]]; rewrite V in *.
  - replace (nzb (-1)) with true by (unfold nzb; destruct (Req_EM_T (-1) 0); [lra|reflexivity]).
    destruct (Req_EM_T (-1) (-1)); [|lra]. cbn [map]. fold k. unfold count_type. cbn [filter snd fst].
    rewrite TS. cbn [negb length]. rewrite S_INR. ring.
  - replace (nzb 0) with false by (unfold nzb; destruct (Req_EM_T 0 0); [reflexivity|lra]). fold k. ring.
  - replace (nzb 1) with true by (unfold nzb; destruct (Req_EM_T 1 0); [lra|reflexivity]).
    destruct (Req_EM_T 1 (-1)); [lra|]. cbn [map]. fold k. unfold count_type. cbn [filter snd fst].
    rewrite TS. cbn [negb length]. rewrite S_INR. ring.
Qed.
