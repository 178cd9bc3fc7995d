(** * JacProofs: proofs for JacModel. *)
From Coq Require Import Reals Lra Qreals.
From Verif Require Import Num Res ListLib Arr FieldModel ScalarFieldModel VectorFieldModel PointsModel FieldSpec FieldProofs FieldProofs2
  GradModel GradSpec GradProofs GradProofs2 GradProofs3 GradProofs5 GradProofs6 CriterionModel CriterionSpec CriterionProofs CriterionProofs2 CriterionProofs5 JacModel JacSpec.
#[local] Open Scope R_scope.

(** ** the gradients of a field with masked vectors *)
Lemma slope_x_known f a hx i j : evenly (ax (vg f)) hx -> d0 a = length (ax (vg f)) -> (i < length (ax (vg f)))%nat ->
  (forall p, stencil (length (ax (vg f))) i p -> exists u, at_ a p j = Some u) ->
  exists g, at_ (grad0 hx a) i j = Some g /\ slope_x f a i j (toR g) /\ forall d, slope_x f a i j d -> d = toR g.
Proof.
  intros Ex H0 Hi F. pose proof Ex as (Hx & Lx & _). pose proof (gpair_spec _ i Lx Hi) as G. pose proof (gstep_axis _ hx i Ex Hi) as Gs.
  destruct (gpair (length (ax (vg f))) i) as [p q] eqn:Ep. cbn [fst snd] in Gs. destruct G as (G1 & G2 & G3 & G4 & _).
  assert (stencil (length (ax (vg f))) i p) as Tp by (apply G4; tauto). assert (stencil (length (ax (vg f))) i q) as Tq by (apply G4; tauto).
  destruct (F p Tp) as (u & Eu). destruct (F q Tq) as (v & Ev).
  pose proof (axis_differ _ hx p q Ex G3 G2) as Nz.
  set (g := ((v - u) / (nths (ax (vg f)) q - nths (ax (vg f)) p))%num).
  assert (toR g * (toR (nths (ax (vg f)) q) - toR (nths (ax (vg f)) p)) = toR v - toR u) as Sg.
  { rewrite <- !toR_sub. now apply toR_div. }
  exists g. split; [|split].
  - rewrite (grad0_at a hx i j p q u v) by (try assumption; now rewrite H0). now rewrite H0, Gs.
  - exists p, q, u, v. repeat (split; [assumption|]). exact Sg.
  - intros d (p' & q' & u' & v' & S1 & S2 & L & E1 & E2 & E). destruct (stencil_pair _ i p' q' p q Ep Lx Hi S1 S2 L) as [-> ->].
    assert (u' = u) by congruence. assert (v' = v) by congruence. subst u' v'. cbn [cell_pos fst snd] in E.
    apply (Rmult_eq_reg_r (toR (nths (ax (vg f)) q) - toR (nths (ax (vg f)) p))); [congruence|].
    rewrite <- toR_sub. intro K. apply Nz. apply toR_inj. change 0%num with (qz 0). now rewrite toR_qz.
Qed.
Lemma slope_y_known f a hy i j : evenly (ay (vg f)) hy -> d1 a = length (ay (vg f)) -> (j < length (ay (vg f)))%nat ->
  (forall p, stencil (length (ay (vg f))) j p -> exists u, at_ a i p = Some u) ->
  exists g, at_ (grad1 hy a) i j = Some g /\ slope_y f a i j (toR g) /\ forall d, slope_y f a i j d -> d = toR g.
Proof.
  intros Ex H0 Hi F. pose proof Ex as (Hx & Lx & _). pose proof (gpair_spec _ j Lx Hi) as G. pose proof (gstep_axis _ hy j Ex Hi) as Gs.
  destruct (gpair (length (ay (vg f))) j) as [p q] eqn:Ep. cbn [fst snd] in Gs. destruct G as (G1 & G2 & G3 & G4 & _).
  assert (stencil (length (ay (vg f))) j p) as Tp by (apply G4; tauto). assert (stencil (length (ay (vg f))) j q) as Tq by (apply G4; tauto).
  destruct (F p Tp) as (u & Eu). destruct (F q Tq) as (v & Ev).
  pose proof (axis_differ _ hy p q Ex G3 G2) as Nz.
  set (g := ((v - u) / (nths (ay (vg f)) q - nths (ay (vg f)) p))%num).
  assert (toR g * (toR (nths (ay (vg f)) q) - toR (nths (ay (vg f)) p)) = toR v - toR u) as Sg.
  { rewrite <- !toR_sub. now apply toR_div. }
  exists g. split; [|split].
  - rewrite (grad1_at a hy i j p q u v) by (try assumption; now rewrite H0). now rewrite H0, Gs.
  - exists p, q, u, v. repeat (split; [assumption|]). exact Sg.
  - intros d (p' & q' & u' & v' & S1 & S2 & L & E1 & E2 & E). destruct (stencil_pair _ j p' q' p q Ep Lx Hi S1 S2 L) as [-> ->].
    assert (u' = u) by congruence. assert (v' = v) by congruence. subst u' v'. cbn [cell_pos fst snd] in E.
    apply (Rmult_eq_reg_r (toR (nths (ay (vg f)) q) - toR (nths (ay (vg f)) p))); [congruence|].
    rewrite <- toR_sub. intro K. apply Nz. apply toR_inj. change 0%num with (qz 0). now rewrite toR_qz.
Qed.
Section J.
Context (f : vfield) (hx hy : num) (W : vf_wf f) (CL : vf_clean f) (Ex : evenly (ax (vg f)) hx) (Ey : evenly (ay (vg f)) hy).
Let n := length (ax (vg f)). Let m := length (ay (vg f)).
Lemma mask_rests i j : (i < n)%nat -> (j < m)%nat -> (at_ (gmask hx hy (vmsk f)) i j = true <-> rests_on_masked f i j).
Proof.
  intros Hi Hj. pose proof W as (_ & _ & [M0 M1]). pose proof Ex as (Hx & Lx & _). pose proof Ey as (Hy & Ly & _).
  unfold gmask. cbn [amap2 at_]. rewrite orb_true_iff, gmask0_spec, gmask1_spec; unfold rests_on_masked; rewrite ?M0, ?M1; try assumption; try tauto; apply qgt_neq; assumption.
Qed.
Lemma grads_known i j : (i < n)%nat -> (j < m)%nat -> ~ rests_on_masked f i j ->
  exists a b c d, rgrads f i j = Some ((a, b), (c, d)) /\ jacobian f i j a b c d /\
    forall a' b' c' d', jacobian f i j a' b' c' d' -> a' = a /\ b' = b /\ c' = c /\ d' = d.
Proof.
  intros Hi Hj NR. pose proof W as ([X0 X1] & [Y0 Y1] & _).
  assert (KX : forall k, stencil n i k -> (exists u, at_ (cx f) k j = Some u) /\ (exists u, at_ (cy f) k j = Some u)).
  { intros k Hk. pose proof (stencil_lt _ _ _ Hk) as Lk. destruct (CL k j Lk Hj) as [C1 C2].
    assert (N : at_ (vmsk f) k j <> true) by (intro E; apply NR; left; exists k; split; assumption).
    split; [destruct (at_ (cx f) k j) as [u|]|destruct (at_ (cy f) k j) as [u|]]; try (exists u; reflexivity); exfalso; apply N; [apply C1|apply C2]; reflexivity. }
  assert (KY : forall k, stencil m j k -> (exists u, at_ (cx f) i k = Some u) /\ (exists u, at_ (cy f) i k = Some u)).
  { intros k Hk. pose proof (stencil_lt _ _ _ Hk) as Lk. destruct (CL i k Hi Lk) as [C1 C2].
    assert (N : at_ (vmsk f) i k <> true) by (intro E; apply NR; right; exists k; split; assumption).
    split; [destruct (at_ (cx f) i k) as [u|]|destruct (at_ (cy f) i k) as [u|]]; try (exists u; reflexivity); exfalso; apply N; [apply C1|apply C2]; reflexivity. }
  destruct (slope_x_known f (cx f) hx i j Ex X0 Hi (fun k K => proj1 (KX k K))) as (a & A1 & A2 & A3).
  destruct (slope_y_known f (cx f) hy i j Ey X1 Hj (fun k K => proj1 (KY k K))) as (b & B1 & B2 & B3).
  destruct (slope_x_known f (cy f) hx i j Ex Y0 Hi (fun k K => proj2 (KX k K))) as (c & C1 & C2 & C3).
  destruct (slope_y_known f (cy f) hy i j Ey Y1 Hj (fun k K => proj2 (KY k K))) as (d & D1 & D2 & D3).
  exists (toR a), (toR b), (toR c), (toR d). split.
  { unfold rgrads. rewrite (evenly_step _ _ Ex), (evenly_step _ _ Ey), A1, B1, C1, D1. reflexivity. }
  split; [repeat split; assumption|]. intros a' b' c' d' (J1 & J2 & J3 & J4). auto.
Qed.
Lemma each_cell_ok {A} p q (F : nat -> nat -> res A) : (forall i j, (i < p)%nat -> (j < q)%nat -> exists x, F i j = Ok x) -> exists u, each_cell p q F = Ok u.
Proof.
  intros H. unfold each_cell.
  assert (T : forall l, (forall c, In c l -> exists x, F (fst c) (snd c) = Ok x) -> exists r, mapM (fun c => F (fst c) (snd c)) l = Ok r).
  { induction l as [|c l IH]; intros G; [exists []; reflexivity|]. cbn [mapM]. destruct (G c (or_introl eq_refl)) as [x ->]. destruct IH as [r ->]; [intros; apply G; now right|]. cbn. eexists. reflexivity. }
  destruct (T (aidx p q)) as [r Er]; [|first [rewrite Er; eexists; reflexivity|idtac]].
  intros [i j] Hc. apply in_aidx in Hc. cbn [fst snd]. apply H; tauto.
Qed.
(** the arrays: zeros where the derivatives rest on masked vectors, eigenvalues and eigenvectors elsewhere *)
Lemma arrays_ok eig : exists v mk, eig_arrays eig f = Ok (v, mk) /\ d0 v = n /\ d1 v = m /\
  forall i j, (i < n)%nat -> (j < m)%nat ->
    (at_ mk i j = true <-> rests_on_masked f i j) /\
    (rests_on_masked f i j -> at_ v i j = zero_cell) /\
    (~ rests_on_masked f i j -> exists a b c d, jacobian f i j a b c d) /\
    (forall a b c d, ~ rests_on_masked f i j -> jacobian f i j a b c d -> at_ v i j = eig_cell eig a b c d).
Proof.
  pose proof W as ([X0 X1] & _). pose proof Ex as (_ & Lx & _). pose proof Ey as (_ & Ly & _). unfold eig_arrays. rewrite !ltb2 by assumption. cbn [orb guard].
  rewrite (evenly_step _ _ Ex), (evenly_step _ _ Ey). cbv zeta. set (cell := fun i j : nat => if at_ (gmask hx hy (vmsk f)) i j then _ else _).
  assert (CE : forall i j, (i < n)%nat -> (j < m)%nat -> ~ rests_on_masked f i j -> exists a b c d, cell i j = Ok (eig_cell eig a b c d) /\ jacobian f i j a b c d /\
    forall a' b' c' d', jacobian f i j a' b' c' d' -> a' = a /\ b' = b /\ c' = c /\ d' = d).
  { intros i j Hi Hj NR. destruct (grads_known i j Hi Hj NR) as (a & b & c & d & E & J & U). exists a, b, c, d. split; [|split; assumption].
    unfold cell. destruct (at_ (gmask hx hy (vmsk f)) i j) eqn:Em; [exfalso; apply NR; apply mask_rests; assumption|]. rewrite E. reflexivity. }
  assert (CM : forall i j, (i < n)%nat -> (j < m)%nat -> rests_on_masked f i j -> cell i j = Ok zero_cell).
  { intros i j Hi Hj R. unfold cell. apply mask_rests in R; [|assumption|assumption]. rewrite R. reflexivity. }
  assert (DEC : forall i j, (i < n)%nat -> (j < m)%nat -> rests_on_masked f i j \/ ~ rests_on_masked f i j).
  { intros i j Hi Hj. destruct (at_ (gmask hx hy (vmsk f)) i j) eqn:Em; [left; apply mask_rests; assumption|right; intro R; apply mask_rests in R; [congruence|assumption|assumption]]. }
  destruct (each_cell_ok (d0 (cx f)) (d1 (cx f)) cell) as [u Eu].
  { rewrite X0, X1. intros i j Hi Hj. destruct (DEC i j Hi Hj) as [R|R]; [eexists; exact (CM i j Hi Hj R)|]. destruct (CE i j Hi Hj R) as (a & b & c & d & E & _). eexists. exact E. }
  rewrite Eu. cbn [bind]. eexists _, _. split; [reflexivity|]. cbn [d0 d1 at_]. split; [exact X0|]. split; [exact X1|]. intros i j Hi Hj.
  split; [apply mask_rests; assumption|]. split; [intros R; transitivity (cell_or zero_cell (cell i j)); [reflexivity|]; rewrite (CM i j Hi Hj R); reflexivity|]. split.
  - intros NR. destruct (CE i j Hi Hj NR) as (a & b & c & d & _ & J & _). eauto.
  - intros a b c d NR J. destruct (CE i j Hi Hj NR) as (a0 & b0 & c0 & e0 & E & _ & U). transitivity (cell_or zero_cell (cell i j)); [reflexivity|]. rewrite E. destruct (U _ _ _ _ J) as (-> & -> & -> & ->). reflexivity.
Qed.
End J.

(** ** one cell *)
Lemma cell_values eig a b c d : eig_right eig a b c d -> let e := eig_cell eig a b c d in
  roots a b c d (val1 e) (val2 e) /\ fst (val2 e) <= fst (val1 e) /\ (fst (val1 e) = fst (val2 e) -> snd (val2 e) <= snd (val1 e)).
Proof.
  unfold eig_right, eig_cell. destruct (eig a b c d) as [[l0 l1] [v0 v1]]. intros ([R1 R2] & _).
  assert (SW : roots a b c d l1 l0).
  { destruct l0, l1; unfold roots, cadd, cmul in *; cbn [fst snd] in *. split; [rewrite <- R1|rewrite <- R2]; f_equal; ring. }
  unfold cgreater. destruct (Rlt_dec (fst l0) (fst l1)); cbn [val1 val2]; [split; [exact SW|split; [lra|lra]]|].
  destruct (Rlt_dec (fst l1) (fst l0)); cbn [val1 val2]; [split; [split; assumption|split; [lra|lra]]|].
  destruct (Rlt_dec (snd l0) (snd l1)); cbn [val1 val2]; [split; [exact SW|split; [lra|lra]]|split; [split; assumption|split; lra]].
Qed.
Lemma real_eigen a b c d l v : ceigen a b c d l v -> cnorm2 v = 1 -> snd l = 0 -> snd (fst v) = 0 -> snd (snd v) = 0 -> is_eigenvector a b c d (fst l) (real_vec v).
Proof.
  destruct l as [l li], v as [[x xi] [y yi]]. unfold ceigen, cnorm2, is_eigenvector, real_vec, cadd, cmul, real. cbn [fst snd]. intros [E1 E2] N -> -> ->.
  injection E1 as E1 _. injection E2 as E2 _. split; [f_equal; lra|lra].
Qed.
Lemma cell_vectors eig a b c d : eig_right eig a b c d -> let e := eig_cell eig a b c d in
  snd (val1 e) = 0 -> snd (val2 e) = 0 -> is_eigenvector a b c d (fst (val1 e)) (vec1 e) /\ is_eigenvector a b c d (fst (val2 e)) (vec2 e).
Proof.
  unfold eig_right, eig_cell. destruct (eig a b c d) as [[l0 l1] [v0 v1]]. intros (_ & E0 & E1 & N0 & N1 & RE).
  destruct (cgreater l1 l0); cbn [val1 val2 vec1 vec2]; intros Z1 Z2; destruct RE as (Ra & Rb & Rc & Rd); try assumption; split; apply real_eigen; assumption.
Qed.
(** real eigenvalues are found as such, from the discriminant *)
Lemma real_disc a b c d l1 l2 : roots a b c d l1 l2 -> 0 <= (a - d) ^ 2 + 4 * (b * c) -> snd l1 = 0 /\ snd l2 = 0.
Proof.
  destruct l1 as [p q], l2 as [r s]. unfold roots, cadd, cmul, real. cbn [fst snd]. intros [E1 E2] D. injection E1 as S1 S2. injection E2 as P1 P2.
  assert (s = - q) by lra. subst s. assert (Q : q * (r - p) = 0) by lra. apply Rmult_integral in Q as [Q|Q]; [lra|]. assert (r = p) by lra. subst r.
  assert (K : (a - d) ^ 2 + 4 * (b * c) = - 4 * q ^ 2) by nra. assert (q ^ 2 = 0) by (pose proof (pow2_ge_0 q); lra). assert (q = 0) by nra. lra.
Qed.
(** a rotation has no real eigenvector *)
Lemma no_direction a b c d l v : (a - d) ^ 2 + 4 * (b * c) < 0 -> v <> (0, 0) -> (a * fst v + b * snd v, c * fst v + d * snd v) <> (l * fst v, l * snd v).
Proof.
  intros D N E. destruct v as [x y]. cbn [fst snd] in E. injection E as E1 E2.
  assert (Q : c * (x * x) + (d - a) * (x * y) - b * (y * y) = 0).
  { transitivity (x * (c * x + d * y) - y * (a * x + b * y)); [ring|]. rewrite E1, E2. ring. }
  pose proof (pow2_ge_0 (a - d)) as SQ.
  assert (B : b <> 0) by (intros ->; lra). assert (C : c <> 0) by (intros ->; lra).
  assert (X : (2 * c * x + (d - a) * y) ^ 2 = ((a - d) ^ 2 + 4 * (b * c)) * (y * y)).
  { replace ((2 * c * x + (d - a) * y) ^ 2) with (4 * c * (c * (x * x) + (d - a) * (x * y) - b * (y * y)) + ((a - d) ^ 2 + 4 * (b * c)) * (y * y)) by ring. rewrite Q. ring. }
  assert (Y : y = 0). { destruct (Req_dec y 0) as [Z|Z]; [exact Z|]. exfalso. pose proof (pow2_ge_0 (2 * c * x + (d - a) * y)). assert (0 < y * y) by nra. nra. }
  subst y. assert (X2 : x * x = 0). { assert (Q' : c * (x * x) = 0) by lra. apply Rmult_integral in Q' as [Q'|Q']; [contradiction|exact Q']. }
  assert (x = 0) by (apply Rmult_integral in X2; tauto). subst x. apply N. reflexivity.
Qed.
(** ** Kenwright's products: with two distinct real eigenvalues, one of the two products is null exactly when the velocity is parallel to the
    acceleration J V *)
Lemma cross_zero (e v : R * R) : fst e * snd v - snd e * fst v = 0 <-> parallel e v.
Proof. unfold parallel. lra. Qed.
Lemma kenwright_line a b c d l1 l2 e1 e2 (v : R * R) : l1 <> l2 -> is_eigenvector a b c d l1 e1 -> is_eigenvector a b c d l2 e2 ->
  (parallel e1 v \/ parallel e2 v <-> parallel (a * fst v + b * snd v, c * fst v + d * snd v) v).
Proof.
  destruct e1 as [x y], e2 as [z w], v as [p q]. unfold is_eigenvector, parallel. cbn [fst snd]. intros N [E1 N1] [E2 N2]. injection E1 as A1 A2. injection E2 as B1 B2.
  (* the vectors are independent: v = s e1 + t e2 *)
  set (D := x * w - y * z).
  assert (DN : D <> 0).
  { intros Z. assert (Kx : (l1 - l2) * (x * w) = (l1 - l2) * (y * z)) by (unfold D in Z; nra).
    assert (L : (l1 - l2) * (x * z + y * w) = 0).
    { assert (P1 : x * D = 0) by (rewrite Z; ring). assert (P2 : y * D = 0) by (rewrite Z; ring).
      (* z = k x, w = k y with k = x z + y w *)
      assert (Hz : z = (x * z + y * w) * x). { transitivity ((x ^ 2 + y ^ 2) * z + y * D); [rewrite N1, Z; ring|]. unfold D. ring. }
      assert (Hw : w = (x * z + y * w) * y). { transitivity ((x ^ 2 + y ^ 2) * w + x * D * -1); [rewrite N1, Z; ring|]. unfold D. ring. }
      set (k := x * z + y * w) in *.
      assert (F1 : k * (l1 * x) = l2 * z). { rewrite <- B1. rewrite Hz, Hw. rewrite <- A1. ring. }
      assert (F2 : k * (l1 * y) = l2 * w). { rewrite <- B2. rewrite Hz, Hw. rewrite <- A2. ring. }
      assert (G1 : (l1 - l2) * z = 0) by (rewrite Hz; rewrite Hz in F1; lra). assert (G2 : (l1 - l2) * w = 0) by (rewrite Hw; rewrite Hw in F2; lra).
      replace ((l1 - l2) * k) with (x * ((l1 - l2) * z) + y * ((l1 - l2) * w)) by (unfold k; ring). rewrite G1, G2. ring. }
    apply Rmult_integral in L as [L|L]; [lra|]. assert (z ^ 2 + w ^ 2 = 0).
    { replace (z ^ 2 + w ^ 2) with ((x ^ 2 + y ^ 2) * (z ^ 2 + w ^ 2)) by (rewrite N1; ring). replace ((x ^ 2 + y ^ 2) * (z ^ 2 + w ^ 2)) with ((x * z + y * w) ^ 2 + D ^ 2) by (unfold D; ring). rewrite L, Z. ring. }
    lra. }
  set (s := (p * w - q * z) / D). set (t := (x * q - y * p) / D).
  assert (Hp : p = s * x + t * z) by (unfold s, t, D in *; field; exact DN). assert (Hq : q = s * y + t * w) by (unfold s, t, D in *; field; exact DN).
  assert (J1 : a * p + b * q = s * (l1 * x) + t * (l2 * z)) by (rewrite <- A1, <- B1, Hp, Hq; ring).
  assert (J2 : c * p + d * q = s * (l1 * y) + t * (l2 * w)) by (rewrite <- A2, <- B2, Hp, Hq; ring).
  rewrite J1, J2.
  assert (C1 : x * q - y * p = t * D) by (unfold D; rewrite Hp, Hq; ring). assert (C2 : z * q - w * p = - (s * D)) by (unfold D; rewrite Hp, Hq; ring).
  assert (C3 : (s * (l1 * x) + t * (l2 * z)) * q - (s * (l1 * y) + t * (l2 * w)) * p = s * t * (l1 - l2) * D) by (unfold D; rewrite Hp, Hq; ring).
  split.
  - intros [H|H].
    + assert (t * D = 0) by lra. assert (t = 0) by (apply Rmult_integral in H0 as [H0|H0]; [exact H0|contradiction]). assert (s * t * (l1 - l2) * D = 0) by (rewrite H1; ring). lra.
    + assert (s * D = 0) by lra. assert (s = 0) by (apply Rmult_integral in H0 as [H0|H0]; [exact H0|contradiction]). assert (s * t * (l1 - l2) * D = 0) by (rewrite H1; ring). lra.
  - intros H. assert (Z : s * t * (l1 - l2) * D = 0) by lra. apply Rmult_integral in Z as [Z|Z]; [|contradiction]. apply Rmult_integral in Z as [Z|Z]; [|exfalso; lra].
    apply Rmult_integral in Z as [Z|Z]; [right; rewrite Z in C2; lra|left; rewrite Z in C1; lra].
Qed.
