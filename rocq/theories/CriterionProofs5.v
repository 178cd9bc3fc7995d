(** * CriterionProofs5: residual and shear vorticity, swirling strength, lambda2, Nk and delta criteria *)
From Coq Require Import Reals Lra Qreals.
From Verif Require Import Num Res ListLib Arr FieldModel ScalarFieldModel VectorFieldModel PointsModel FieldSpec FieldProofs FieldProofs2
  GradModel GradSpec GradProofs GradProofs2 GradProofs3 GradProofs5 CriterionModel CriterionSpec CriterionProofs CriterionProofs2.
#[local] Open Scope R_scope.

(** ** matrices of order 2 *)
Lemma turns_all_iff a b c d : turns_all a b c d <-> (a - d) * (a - d) + 4 * (b * c) < 0.
Proof.
  split.
  - intro T. destruct (Rlt_dec ((a - d) * (a - d) + 4 * (b * c)) 0) as [L|L]; [exact L|]. exfalso. apply T.
    set (D := (a - d) * (a - d) + 4 * (b * c)) in *. assert (0 <= D) as HD by lra. pose proof (sqrt_sqrt D HD) as Q.
    destruct (Req_EM_T b 0) as [Hb|Hb].
    + exists d, (0, 1). split; [intro K; injection K; lra|]. rewrite Hb. cbn [fst snd]. f_equal; ring.
    + exists ((a + d + sqrt D) / 2), (b, (a + d + sqrt D) / 2 - a). split; [intro K; injection K; intros; lra|]. cbn [fst snd]. f_equal; [ring|].
      assert (sqrt D * sqrt D = (a - d) * (a - d) + 4 * (b * c)) as Q' by exact Q. revert Q'. generalize (sqrt D). intros. nra.
  - intros L (l & [x y] & N & E). cbn [fst snd] in *. injection E as E1 E2.
    assert (forall t, (t = x \/ t = y) -> ((a - l) * (d - l) - b * c) * t = 0) as H.
    { intros t [-> | ->].
      - replace (((a - l) * (d - l) - b * c) * x) with ((d - l) * (a * x + b * y - l * x) - b * (c * x + d * y - l * y)) by ring. rewrite E1, E2. ring.
      - replace (((a - l) * (d - l) - b * c) * y) with ((a - l) * (c * x + d * y - l * y) - c * (a * x + b * y - l * x)) by ring. rewrite E1, E2. ring. }
    assert ((a - l) * (d - l) - b * c = 0) as K.
    { destruct (Req_EM_T x 0) as [Hx|Hx]; [destruct (Req_EM_T y 0) as [Hy|Hy]; [subst; congruence|]|].
      - pose proof (H y (or_intror eq_refl)) as K. apply Rmult_integral in K. tauto.
      - pose proof (H x (or_introl eq_refl)) as K. apply Rmult_integral in K. tauto. }
    assert ((a - d) * (a - d) + 4 * (b * c) = (2 * l - a - d) * (2 * l - a - d) + 4 * (b * c - (a - l) * (d - l))) as Z by ring.
    pose proof (Rle_0_sqr (2 * l - a - d)) as S. unfold Rsqr in S. lra.
Qed.
Lemma eig_cases eig a b c d : eigenvalues eig -> let D := (a - d) * (a - d) + 4 * (b * c) in
  exists x1 x2 y, eig a b c d = ((x1, y), (x2, - y)) /\
    (D < 0 /\ 2 * x1 = a + d /\ 2 * x2 = a + d /\ 4 * (y * y) = - D \/ 0 <= D /\ y = 0 /\ x1 + x2 = a + d /\ x1 * x2 = a * d - b * c).
Proof.
  intros H D. specialize (H a b c d). destruct (eig a b c d) as [[x1 y1] [x2 y2]]. cbn [fst snd] in H. destruct H as (H1 & H2 & H3 & H4).
  assert (y2 = - y1) as -> by lra. exists x1, x2, y1. split; [reflexivity|].
  destruct (Req_EM_T y1 0) as [Y|Y].
  - right. subst y1. split; [|repeat split; lra]. unfold D. pose proof (Rle_0_sqr (x1 - x2)) as S. unfold Rsqr in S. nra.
  - left. assert (x1 = x2) as <-.
    { assert (y1 * (x2 - x1) = 0) as K by lra. apply Rmult_integral in K. destruct K; lra. }
    assert (0 < y1 * y1) as P by nra. assert (4 * (y1 * y1) = - D) as E; [|repeat split; lra].
    unfold D. replace x1 with ((a + d) / 2) in H3 by lra. nra.
Qed.
Lemma swirling_lemma eig a b c d : eigenvalues eig -> let s := swirling_of eig a b c d in
  0 <= s /\ (0 < s <-> turns_all a b c d) /\ (turns_all a b c d -> 4 * (s * s) = 4 * (a * d - b * c) - (a + d) * (a + d)).
Proof.
  intros H s. rewrite turns_all_iff. destruct (eig_cases eig a b c d H) as (x1 & x2 & y & E & C). unfold s, swirling_of. rewrite E. cbn [snd].
  assert (Rmax y (- y) = Rabs y) as ->.
  { unfold Rabs. destruct (Rcase_abs y); [apply Rmax_right; lra|apply Rmax_left; lra]. }
  assert (Rabs y * Rabs y = y * y) as Q by (unfold Rabs; destruct (Rcase_abs y); ring).
  split; [apply Rabs_pos|]. rewrite Q. destruct C as [(C1 & C2 & C3 & C4)|(C1 & C2 & C3 & C4)].
  - split; [|intros _; nra]. split; [intros _; exact C1|intros _]. apply Rabs_pos_lt. intros ->. lra.
  - split; [|intro; lra]. split; [|intro; lra]. intro K. subst y. rewrite Rabs_R0 in K. lra.
Qed.
Lemma least_root A B D x1 x2 : x1 + x2 = A + D -> x1 * x2 = A * D - B * B -> least_eigenvalue ((A, B), (B, D)) (Rmin x1 x2).
Proof.
  intros H1 H2. set (l := Rmin x1 x2).
  assert (2 * l <= A + D) as L1. { unfold l. pose proof (Rmin_l x1 x2). pose proof (Rmin_r x1 x2). lra. }
  assert ((A - l) * (D - l) = B * B) as L2.
  { assert ((l - x1) * (l - x2) = 0) as K. { unfold l, Rmin. destruct (Rle_dec x1 x2); ring. }
    replace (B * B) with (A * D - x1 * x2) by lra. replace x2 with (A + D - x1) in * by lra. lra. }
  assert (0 <= A - l) as PA. { pose proof (Rle_0_sqr B) as S. unfold Rsqr in S. nra. }
  assert (0 <= D - l) as PD. { pose proof (Rle_0_sqr B) as S. unfold Rsqr in S. nra. }
  split.
  - intros [u v]. unfold dot, mvec, dot. cbn [fst snd].
    assert (0 <= (A - l) * (u * u) + 2 * (B * (u * v)) + (D - l) * (v * v)) as K; [|lra].
    destruct (Req_EM_T (A - l) 0) as [Z|Z].
    + assert (B = 0) as ->. { rewrite Z in L2. assert (B * B = 0) as K by lra. apply Rmult_integral in K. tauto. }
      rewrite Z. pose proof (Rle_0_sqr v) as S. unfold Rsqr in S. nra.
    + apply (Rmult_le_reg_l (A - l)); [lra|]. rewrite Rmult_0_r.
      replace ((A - l) * ((A - l) * (u * u) + 2 * (B * (u * v)) + (D - l) * (v * v))) with (Rsqr ((A - l) * u + B * v) + ((A - l) * (D - l) - B * B) * (v * v)) by (unfold Rsqr; ring).
      rewrite L2. pose proof (Rle_0_sqr ((A - l) * u + B * v)). lra.
  - destruct (Req_EM_T (l - A) 0) as [Z|Z].
    + exists (1, 0). split; [intro K; injection K; lra|].
      assert (B = 0) as ->. { replace (A - l) with 0 in L2 by lra. assert (B * B = 0) as K by lra. apply Rmult_integral in K. tauto. }
      unfold mvec, dot. cbn [fst snd]. f_equal; lra.
    + exists (B, l - A). split; [intro K; injection K; intros; lra|]. unfold mvec, dot. cbn [fst snd]. f_equal; [ring|]. nra.
Qed.
Definition s2_o2 (a b c d : R) : mat :=
  let j := ((a, b), (c, d)) in
  madd (mmul (symmetric_part j) (symmetric_part j)) (mmul (antisymmetric_part j) (antisymmetric_part j)).
Lemma lambda2_lemma eig a b c d : eigenvalues eig -> let l := lambda2_of eig a b c d in
  least_eigenvalue (s2_o2 a b c d) l /\ (a + d = 0 -> l = - (a * d - b * c) /\ (l < 0 <-> turns_all a b c d)).
Proof.
  intros H l. unfold l, lambda2_of, lambda2_matrix.
  set (A := a * a + _ - _). set (B := a * _ + _). set (C := _ * a + _). set (D := _ + d * d - _).
  assert (C = B) as EC by (unfold B, C; ring).
  assert (s2_o2 a b c d = ((A, B), (B, D))) as ->.
  { unfold s2_o2, madd, mmul, symmetric_part, antisymmetric_part, vadd, dot. cbn [fst snd]. unfold A, B, D. f_equal; (f_equal; field). }
  destruct (eig_cases eig A B C D H) as (x1 & x2 & y & E & K). rewrite E. cbn [fst]. rewrite EC in K.
  destruct K as [(K & _)|(_ & _ & K1 & K2)].
  { exfalso. pose proof (Rle_0_sqr (A - D)) as S1. pose proof (Rle_0_sqr B) as S2. unfold Rsqr in *. lra. }
  split; [now apply least_root|]. intro Z. assert (d = - a) as -> by lra.
  assert (B = 0) as HB by (unfold B; ring). assert (A = D) as HA by (unfold A, D; field).
  assert (D = - (a * - a - b * c)) as HD by (unfold D; field). rewrite HB, HA in *.
  assert (x1 = D /\ x2 = D) as [-> ->].
  { assert ((x1 - D) * (x1 - D) = 0) as Q; [|apply Rmult_integral in Q; lra]. replace x2 with (2 * D - x1) in K2 by lra. lra. }
  replace (Rmin D D) with D by (unfold Rmin; destruct (Rle_dec D D); reflexivity). split; [exact HD|].
  rewrite turns_all_iff, HD. split; lra.
Qed.
Lemma nk_lemma a b c d : let j := ((a, b), (c, d)) in
  (norm_sq (symmetric_part j) = 0 -> nk_of a b c d = None) /\
  (0 < norm_sq (symmetric_part j) -> exists k, nk_of a b c d = Some k /\ 0 <= k /\
     k * k * norm_sq (symmetric_part j) = norm_sq (antisymmetric_part j) /\
     (1 < k <-> norm_sq (symmetric_part j) < norm_sq (antisymmetric_part j)) /\
     (a + d = 0 -> (1 < k <-> turns_all a b c d))).
Proof.
  intro j. unfold nk_of. set (N := norm_sq (symmetric_part j)). set (M := norm_sq (antisymmetric_part j)).
  assert (a * a + / 2 * ((b + c) * (b + c)) + d * d = N) as ->.
  { unfold N, norm_sq, symmetric_part, j, dot. cbn [fst snd]. field. }
  split; [intros ->; rewrite sqrt_0; destruct (Req_EM_T 0 0); [reflexivity|lra]|]. intro HN.
  pose proof (sqrt_lt_R0 N HN) as HS. destruct (Req_EM_T (sqrt N) 0) as [Z|_]; [lra|].
  pose proof (sqrt_lt_R0 2 ltac:(lra)) as H2. pose proof (sqrt_sqrt 2 ltac:(lra)) as S2. pose proof (sqrt_sqrt N ltac:(lra)) as SN.
  set (r := / sqrt 2 * Rabs (b - c)).
  assert (0 <= r) as Hr. { unfold r. apply Rmult_le_pos; [|apply Rabs_pos]. left. now apply Rinv_0_lt_compat. }
  assert (r * r = M) as HM.
  { unfold r. replace (/ sqrt 2 * Rabs (b - c) * (/ sqrt 2 * Rabs (b - c))) with (/ (sqrt 2 * sqrt 2) * (Rabs (b - c) * Rabs (b - c))) by (field; lra).
    rewrite S2. assert (Rabs (b - c) * Rabs (b - c) = (b - c) * (b - c)) as -> by (unfold Rabs; destruct (Rcase_abs _); ring).
    unfold M, norm_sq, antisymmetric_part, j, dot. cbn [fst snd]. field. }
  set (k := r / sqrt N). assert (k * sqrt N = r) as Hk by (unfold k; field; lra).
  assert (0 <= k) as K0. { unfold k, Rdiv. apply Rmult_le_pos; [exact Hr|]. left. now apply Rinv_0_lt_compat. }
  assert (k * k * N = M) as HK. { rewrite <- SN, <- HM, <- Hk. ring. }
  assert (1 < k <-> N < M) as HI.
  { rewrite <- HK. split; intro L.
    - assert (1 < k * k) by nra. pose proof (Rmult_lt_compat_r N 1 (k * k) HN ltac:(assumption)). lra.
    - destruct (Rlt_dec 1 k) as [|K]; [assumption|]. exfalso. assert (k * k <= 1) by nra. pose proof (Rmult_le_compat_r N (k * k) 1 ltac:(lra) ltac:(assumption)). lra. }
  exists k. split; [reflexivity|]. split; [exact K0|]. split; [exact HK|]. split; [exact HI|].
  intro T. rewrite HI, turns_all_iff. unfold N, M, norm_sq, symmetric_part, antisymmetric_part, j, dot. cbn [fst snd]. replace d with (- a) by lra. split; lra.
Qed.
Lemma delta_lemma eig a b c d : eigenvalues eig ->
  (snd (delta_of eig a b c d) = false <-> turns_all a b c d) /\
  (a = 0 -> d = 0 -> b = - c -> c <> 0 -> snd (delta_of eig a b c d) = false /\ 0 < fst (delta_of eig a b c d)).
Proof.
  intro H. rewrite turns_all_iff. destruct (eig_cases eig a b c d H) as (x1 & x2 & y & E & C). unfold delta_of. rewrite E. cbn [fst snd].
  split.
  - destruct (Req_EM_T y 0) as [Y|Y]; [destruct (Req_EM_T (- y) 0); [|lra]|].
    + split; [discriminate|]. intro L. subst y. destruct C as [(C1 & C2 & C3 & C4)|(C1 & _)]; lra.
    + split; [|reflexivity]. intros _. destruct C as [(C1 & _)|(_ & C2 & _)]; [exact C1|contradiction].
  - intros -> -> -> Hc. assert (0 < c * c) as Pc by nra.
    destruct (Req_EM_T y 0) as [Y|Y].
    { exfalso. subst y. destruct C as [(_ & _ & _ & C)|(C & _)]; lra. }
    split; [reflexivity|]. unfold q_of.
    assert (/ 2 * (/ 2 * ((- c - c) * (- c - c))) - (0 * 0 + / 2 * ((- c + c) * (- c + c)) + 0 * 0) = c * c) as -> by field.
    assert (0 < c * c / 3) as P3 by lra. assert (0 <= (- (0 * 0 - - c * c)) / 2 * (- (0 * 0 - - c * c) / 2)) as PR by (apply Rle_0_sqr).
    assert (0 < c * c / 3 * (c * c / 3) * (c * c / 3)) as P4 by (apply Rmult_lt_0_compat; [apply Rmult_lt_0_compat; exact P3|exact P3]). lra.
Qed.
(** ** residual and shear vorticity *)
Lemma residual_lemma a b c : let w := (c - b) / 2 in let s2 := (4 * (a * a) + (b + c) * (b + c)) / 4 in
  residual_of a b c + shear_of a b c = w /\ Rabs (residual_of a b c) <= Rabs w /\ 0 <= residual_of a b c * w /\
  (residual_of a b c <> 0 <-> s2 < w * w).
Proof.
  intros w s2. unfold residual_of, shear_of, omega_of. fold w. set (s := strain a b c).
  assert (0 <= s) as Hs. { unfold s, strain. pose proof (sqrt_pos (4 * (a * a) + (b + c) * (b + c))). lra. }
  assert (s * s = s2) as Hss.
  { unfold s, strain, s2. set (t := 4 * (a * a) + (b + c) * (b + c)). assert (0 <= t) as Ht by (unfold t; pose proof (Rle_0_sqr a) as S1; pose proof (Rle_0_sqr (b + c)) as S2; unfold Rsqr in *; lra). pose proof (sqrt_sqrt t Ht). lra. }
  clearbody s s2. clearbody w.
  assert (Rabs w * Rabs w = w * w) as Q by (unfold Rabs; destruct (Rcase_abs w); ring).
  pose proof (Rabs_pos w) as Pw.
  destruct (Rlt_dec s (Rabs w)) as [L|L].
  - destruct (Req_EM_T (Rabs w) 0) as [Z|Z]; [lra|]. set (g := w / Rabs w).
    assert (g * Rabs w = w) as G by (unfold g; field; exact Z). assert (Rabs g = 1) as Ga.
    { apply (Rmult_eq_reg_r (Rabs w)); [|exact Z]. rewrite Rmult_1_l. transitivity (Rabs (g * Rabs w)); [|now rewrite G].
      now rewrite Rabs_mult, Rabs_Rabsolu. }
    split; [lra|]. split. { rewrite Rabs_mult, Ga, Rmult_1_l. rewrite Rabs_right by lra. lra. }
    split. { rewrite <- G at 2. assert (0 <= g * g) by nra. replace (g * (Rabs w - s) * (g * Rabs w)) with (g * g * ((Rabs w - s) * Rabs w)) by ring.
      apply Rmult_le_pos; [assumption|]. apply Rmult_le_pos; lra. }
    split; [intros _; nra|]. intros _ K. apply Rmult_integral in K. destruct K as [K|K]; [rewrite K, Rabs_R0 in Ga; lra|lra].
  - rewrite Rabs_R0. split; [lra|]. split; [exact Pw|]. split; [lra|]. split; [intro K; now contradiction K|]. intros K. nra.
Qed.
Lemma residual_turns a b c d : a + d = 0 -> (residual_of a b c <> 0 <-> turns_all a b c d).
Proof.
  intro H. rewrite turns_all_iff. destruct (residual_lemma a b c) as (_ & _ & _ & ->). replace d with (- a) by lra. split; lra.
Qed.

(** ** the gradients *)
Lemma toR_sub a b : toR (a - b)%num = toR a - toR b.
Proof. replace (a - b)%num with (a + - b)%num by qring. rewrite toR_add, toR_opp. ring. Qed.
Lemma toR_div a b : b <> 0%num -> toR (a / b)%num * toR b = toR a.
Proof. intro H. rewrite <- toR_mul. f_equal. now qfield. Qed.
Lemma stencil_pair n i p q p0 q0 : gpair n i = (p0, q0) -> (2 <= n)%nat -> (i < n)%nat -> stencil n i p -> stencil n i q -> (p < q)%nat -> p = p0 /\ q = q0.
Proof.
  intros E Hn Hi Sp Sq L. pose proof (gpair_spec n i Hn Hi) as G. rewrite E in G. destruct G as (_ & _ & G3 & G4 & _).
  apply G4 in Sp. apply G4 in Sq. lia.
Qed.
Lemma axis_differ l h p q : evenly l h -> (p < q)%nat -> (q < length l)%nat -> (nths l q - nths l p)%num <> 0%num.
Proof. intros E L Hq K. pose proof (evenly_increasing _ _ E p q L Hq) as I. revert I K. generalize (nths l q) (nths l p). intros u v I K. qlra. Qed.
Lemma slope_x_value f a hx i j : evenly (ax (vg f)) hx -> d0 a = length (ax (vg f)) -> (i < length (ax (vg f)))%nat ->
  (forall p, (p < length (ax (vg f)))%nat -> exists u, at_ a p j = Some u) ->
  exists g, at_ (grad0 hx a) i j = Some g /\ slope_x f a i j (toR g) /\ forall d, slope_x f a i j d -> d = toR g.
Proof.
  intros Ex H0 Hi F. pose proof Ex as (Hx & Lx & _). pose proof (gpair_spec _ i Lx Hi) as G. pose proof (gstep_axis _ hx i Ex Hi) as Gs.
  destruct (gpair (length (ax (vg f))) i) as [p q] eqn:Ep. cbn [fst snd] in Gs. destruct G as (G1 & G2 & G3 & G4 & _).
  assert (stencil (length (ax (vg f))) i p) as Tp by (apply G4; tauto). assert (stencil (length (ax (vg f))) i q) as Tq by (apply G4; tauto).
  destruct (F p G1) as (u & Eu). destruct (F q G2) as (v & Ev).
  pose proof (axis_differ _ hx p q Ex G3 G2) as Nz.
  set (g := ((v - u) / (nths (ax (vg f)) q - nths (ax (vg f)) p))%num).
  assert (toR g * (toR (nths (ax (vg f)) q) - toR (nths (ax (vg f)) p)) = toR v - toR u) as Sg.
  { rewrite <- !toR_sub. now apply toR_div. }
  exists g. split; [|split].
  - rewrite (grad0_at a hx i j p q u v) by (try assumption; now rewrite H0). now rewrite H0, Gs.
  - exists p, q, u, v. repeat (split; [assumption|]). exact Sg.
  - intros d (p' & q' & u' & v' & S1 & S2 & L & E1 & E2 & E). destruct (stencil_pair _ i p' q' p q Ep Lx Hi S1 S2 L) as [-> ->].
    assert (u' = u) by congruence. assert (v' = v) by congruence. subst u' v'. cbn [cell_pos fst snd] in E.
    apply (Rmult_eq_reg_r (toR (nths (ax (vg f)) q) - toR (nths (ax (vg f)) p))); [congruence|].
    rewrite <- toR_sub. intro K. apply Nz. apply toR_inj. change 0%num with (qz 0). now rewrite toR_qz.
Qed.
Lemma slope_y_value f a hy i j : evenly (ay (vg f)) hy -> d1 a = length (ay (vg f)) -> (j < length (ay (vg f)))%nat ->
  (forall p, (p < length (ay (vg f)))%nat -> exists u, at_ a i p = Some u) ->
  exists g, at_ (grad1 hy a) i j = Some g /\ slope_y f a i j (toR g) /\ forall d, slope_y f a i j d -> d = toR g.
Proof.
  intros Ex H0 Hi F. pose proof Ex as (Hx & Lx & _). pose proof (gpair_spec _ j Lx Hi) as G. pose proof (gstep_axis _ hy j Ex Hi) as Gs.
  destruct (gpair (length (ay (vg f))) j) as [p q] eqn:Ep. cbn [fst snd] in Gs. destruct G as (G1 & G2 & G3 & G4 & _).
  assert (stencil (length (ay (vg f))) j p) as Tp by (apply G4; tauto). assert (stencil (length (ay (vg f))) j q) as Tq by (apply G4; tauto).
  destruct (F p G1) as (u & Eu). destruct (F q G2) as (v & Ev).
  pose proof (axis_differ _ hy p q Ex G3 G2) as Nz.
  set (g := ((v - u) / (nths (ay (vg f)) q - nths (ay (vg f)) p))%num).
  assert (toR g * (toR (nths (ay (vg f)) q) - toR (nths (ay (vg f)) p)) = toR v - toR u) as Sg.
  { rewrite <- !toR_sub. now apply toR_div. }
  exists g. split; [|split].
  - rewrite (grad1_at a hy i j p q u v) by (try assumption; now rewrite H0). now rewrite H0, Gs.
  - exists p, q, u, v. repeat (split; [assumption|]). exact Sg.
  - intros d (p' & q' & u' & v' & S1 & S2 & L & E1 & E2 & E). destruct (stencil_pair _ j p' q' p q Ep Lx Hi S1 S2 L) as [-> ->].
    assert (u' = u) by congruence. assert (v' = v) by congruence. subst u' v'. cbn [cell_pos fst snd] in E.
    apply (Rmult_eq_reg_r (toR (nths (ay (vg f)) q) - toR (nths (ay (vg f)) p))); [congruence|].
    rewrite <- toR_sub. intro K. apply Nz. apply toR_inj. change 0%num with (qz 0). now rewrite toR_qz.
Qed.
Lemma rgrads_value f hx hy i j : vf_wf f -> vf_full f -> evenly (ax (vg f)) hx -> evenly (ay (vg f)) hy ->
  (i < length (ax (vg f)))%nat -> (j < length (ay (vg f)))%nat ->
  exists a b c d, at_ (grad0 hx (cx f)) i j = Some a /\ at_ (grad1 hy (cx f)) i j = Some b /\
    at_ (grad0 hx (cy f)) i j = Some c /\ at_ (grad1 hy (cy f)) i j = Some d /\
    rgrads f i j = Some ((toR a, toR b), (toR c, toR d)) /\ jacobian f i j (toR a) (toR b) (toR c) (toR d) /\
    forall a' b' c' d', jacobian f i j a' b' c' d' -> a' = toR a /\ b' = toR b /\ c' = toR c /\ d' = toR d.
Proof.
  intros ([X0 X1] & [Y0 Y1] & _) F Ex Ey Hi Hj.
  destruct (slope_x_value f (cx f) hx i j Ex X0 Hi) as (a & A1 & A2 & A3). { intros p Hp. now destruct (F p j Hp Hj) as (_ & H & _). }
  destruct (slope_y_value f (cx f) hy i j Ey X1 Hj) as (b & B1 & B2 & B3). { intros p Hp. now destruct (F i p Hi Hp) as (_ & H & _). }
  destruct (slope_x_value f (cy f) hx i j Ex Y0 Hi) as (c & C1 & C2 & C3). { intros p Hp. now destruct (F p j Hp Hj) as (_ & _ & H). }
  destruct (slope_y_value f (cy f) hy i j Ey Y1 Hj) as (d & D1 & D2 & D3). { intros p Hp. now destruct (F i p Hi Hp) as (_ & _ & H). }
  exists a, b, c, d. repeat (split; [assumption|]). split.
  { unfold rgrads. rewrite (evenly_step _ _ Ex), (evenly_step _ _ Ey), A1, B1, C1, D1. reflexivity. }
  split; [repeat split; assumption|]. intros a' b' c' d' (J1 & J2 & J3 & J4). auto.
Qed.
Lemma jacobian_exists f hx hy i j : vf_wf f -> vf_full f -> evenly (ax (vg f)) hx -> evenly (ay (vg f)) hy ->
  (i < length (ax (vg f)))%nat -> (j < length (ay (vg f)))%nat -> exists a b c d, jacobian f i j a b c d.
Proof. intros W F Ex Ey Hi Hj. destruct (rgrads_value f hx hy i j W F Ex Ey Hi Hj) as (a & b & c & d & _ & _ & _ & _ & _ & J & _). eauto. Qed.
Lemma from_grads_value {A} (G : R -> R -> R -> R -> A) z f hx hy : vf_wf f -> vf_full f -> evenly (ax (vg f)) hx -> evenly (ay (vg f)) hy ->
  exists v, from_grads G z f = Ok v /\ d0 v = length (ax (vg f)) /\ d1 v = length (ay (vg f)) /\
    forall i j a b c d, (i < length (ax (vg f)))%nat -> (j < length (ay (vg f)))%nat -> jacobian f i j a b c d -> at_ v i j = G a b c d.
Proof.
  intros W F Ex Ey. pose proof Ex as (_ & Lx & _). pose proof Ey as (_ & Ly & _). unfold from_grads. rewrite !ltb2 by assumption. cbn [orb guard].
  eexists. split; [reflexivity|]. cbn [d0 d1 at_]. pose proof W as ([X0 X1] & _). split; [exact X0|]. split; [exact X1|].
  intros i j a b c d Hi Hj J. destruct (rgrads_value f hx hy i j W F Ex Ey Hi Hj) as (a0 & b0 & c0 & e0 & _ & _ & _ & _ & -> & _ & U).
  destruct (U a b c d J) as (-> & -> & -> & ->). reflexivity.
Qed.
Lemma rgrads_filled f t hx hy i j : vf_wf f -> vf_wf t -> vg t = vg f -> evenly (ax (vg f)) hx -> evenly (ay (vg f)) hy ->
  (forall i j, (i < length (ax (vg f)))%nat -> (j < length (ay (vg f)))%nat -> at_ (cx t) i j = at_ (cx f) i j /\ at_ (cy t) i j = at_ (cy f) i j) ->
  (i < length (ax (vg f)))%nat -> (j < length (ay (vg f)))%nat -> rgrads t i j = rgrads f i j.
Proof.
  intros ([X0 X1] & [Y0 Y1] & _) ([X0' X1'] & [Y0' Y1'] & _) G Ex Ey P Hi Hj. pose proof Ex as (_ & Lx & _). pose proof Ey as (_ & Ly & _).
  unfold rgrads. rewrite G. rewrite G in X0', X1', Y0', Y1'.
  pose proof (gpair_spec _ i Lx Hi) as Sx. pose proof (gpair_spec _ j Ly Hj) as Sy. unfold grad0, grad1. cbn [at_].
  rewrite X0, X1, Y0, Y1, X0', X1', Y0', Y1'.
  destruct (gpair (length (ax (vg f))) i) as [p q]. destruct (gpair (length (ay (vg f))) j) as [p' q'].
  destruct Sx as (S1 & S2 & _). destruct Sy as (S3 & S4 & _).
  destruct (P p j S1 Hj) as [-> ->]. destruct (P q j S2 Hj) as [-> ->]. destruct (P i p' Hi S3) as [-> ->]. destruct (P i q' Hi S4) as [-> ->]. reflexivity.
Qed.
(** ** the fields *)
Lemma residual_field_lemma nearest linear cubic f hx hy : vf_wf f -> vf_full f -> evenly (ax (vg f)) hx -> evenly (ay (vg f)) hy ->
  exists w r s, vf_vorticity (default_fill nearest linear cubic) f = Ok w /\
    get_residual (default_fill nearest linear cubic) f = Ok r /\ get_shear (default_fill nearest linear cubic) f = Ok s /\
    forall i j, (i < length (ax (vg f)))%nat -> (j < length (ay (vg f)))%nat ->
      exists vw vr vs, at_ (values w) i j = Some vw /\ at_ r i j = Some vr /\ at_ s i j = Some vs /\
        vr + vs = toR vw /\ Rabs vr <= Rabs (toR vw) /\ 0 <= vr * toR vw /\
        forall a b c d, jacobian f i j a b c d -> toR vw = (c - b) / 2 /\
          (vr <> 0 <-> (4 * (a * a) + (b + c) * (b + c)) / 4 < toR vw * toR vw) /\
          (a + d = 0 -> (vr <> 0 <-> turns_all a b c d)).
Proof.
  intros W F Ex Ey. pose proof Ex as (_ & Lx & _). pose proof Ey as (_ & Ly & _). pose proof (evenly_sorted _ _ _ Ex Ey) as Gs.
  destruct (vorticity_run nearest linear cubic f hx hy W F Ex Ey) as (w & Ew & _ & Pw).
  destruct (fill_full nearest linear cubic f W F Gs Lx Ly) as (t & Et & (Tg & _ & Tw) & Pt).
  exists w. unfold get_residual, get_shear. rewrite Et. cbn [bind]. rewrite Tg, !ltb2 by assumption. cbn [orb guard].
  eexists. eexists. split; [exact Ew|]. split; [reflexivity|]. split; [reflexivity|]. intros i j Hi Hj. cbn [at_].
  rewrite (rgrads_filled f t hx hy i j W Tw Tg Ex Ey (fun i j Hi Hj => conj (proj1 (Pt i j Hi Hj)) (proj1 (proj2 (Pt i j Hi Hj)))) Hi Hj).
  destruct (rgrads_value f hx hy i j W F Ex Ey Hi Hj) as (a & b & c & d & _ & Eb & Ec & _ & -> & _ & U). cbn [option_map fst snd].
  destruct (Pw i j Hi Hj) as [Vw _]. rewrite Eb, Ec in Vw. cbn [osub lift2 odiv] in Vw.
  exists ((c - b) / 2)%num, (residual_of (toR a) (toR b) (toR c)), (shear_of (toR a) (toR b) (toR c)).
  split; [exact Vw|]. split; [reflexivity|]. split; [reflexivity|].
  assert (toR ((c - b) / 2)%num = (toR c - toR b) / 2) as Hw.
  { assert (2%num <> 0%num) as N2 by (intro K; apply qz_inj in K; discriminate). pose proof (toR_div (c - b)%num 2%num N2) as Q. rewrite toR_sub in Q.
    change 2%num with (qz 2) in Q at 2. rewrite toR_qz in Q. lra. }
  rewrite Hw. destruct (residual_lemma (toR a) (toR b) (toR c)) as (R1 & R2 & R3 & R4).
  split; [exact R1|]. split; [exact R2|]. split; [exact R3|]. intros a' b' c' d' J. destruct (U a' b' c' d' J) as (-> & -> & -> & ->).
  split; [reflexivity|]. split; [exact R4|]. apply residual_turns.
Qed.
Lemma swirling_field_lemma eig f hx hy : eigenvalues eig -> vf_wf f -> vf_full f -> evenly (ax (vg f)) hx -> evenly (ay (vg f)) hy ->
  exists v, get_swirling eig f = Ok v /\
    forall i j a b c d, (i < length (ax (vg f)))%nat -> (j < length (ay (vg f)))%nat -> jacobian f i j a b c d ->
      exists s, at_ v i j = Some s /\ 0 <= s /\ (0 < s <-> turns_all a b c d) /\
        (turns_all a b c d -> 4 * (s * s) = 4 * (a * d - b * c) - (a + d) * (a + d)).
Proof.
  intros He W F Ex Ey. unfold get_swirling.
  destruct (from_grads_value (fun a b c d => Some (swirling_of eig a b c d)) None f hx hy W F Ex Ey) as (v & E & _ & _ & P).
  exists v. split; [exact E|]. intros i j a b c d Hi Hj J. exists (swirling_of eig a b c d). split; [now apply P|]. now apply swirling_lemma.
Qed.
Lemma lambda2_field_lemma eig f hx hy : eigenvalues eig -> vf_wf f -> vf_full f -> evenly (ax (vg f)) hx -> evenly (ay (vg f)) hy ->
  exists v, get_lambda2 eig f = Ok v /\
    forall i j a b c d, (i < length (ax (vg f)))%nat -> (j < length (ay (vg f)))%nat -> jacobian f i j a b c d ->
      exists l, at_ v i j = Some l /\
        (let m := ((a, b), (c, d)) in
         least_eigenvalue (madd (mmul (symmetric_part m) (symmetric_part m)) (mmul (antisymmetric_part m) (antisymmetric_part m))) l) /\
        (a + d = 0 -> l = - (a * d - b * c) /\ (l < 0 <-> turns_all a b c d)).
Proof.
  intros He W F Ex Ey. unfold get_lambda2.
  destruct (from_grads_value (fun a b c d => Some (lambda2_of eig a b c d)) None f hx hy W F Ex Ey) as (v & E & _ & _ & P).
  exists v. split; [exact E|]. intros i j a b c d Hi Hj J. exists (lambda2_of eig a b c d). split; [now apply P|]. now apply lambda2_lemma.
Qed.
Lemma nk_field_lemma f hx hy : vf_wf f -> vf_full f -> evenly (ax (vg f)) hx -> evenly (ay (vg f)) hy ->
  exists v, get_nk f = Ok v /\
    forall i j a b c d, (i < length (ax (vg f)))%nat -> (j < length (ay (vg f)))%nat -> jacobian f i j a b c d ->
      let m := ((a, b), (c, d)) in
      (norm_sq (symmetric_part m) = 0 -> at_ v i j = None) /\
      (0 < norm_sq (symmetric_part m) -> exists k, at_ v i j = Some k /\ 0 <= k /\
         k * k * norm_sq (symmetric_part m) = norm_sq (antisymmetric_part m) /\
         (1 < k <-> norm_sq (symmetric_part m) < norm_sq (antisymmetric_part m)) /\
         (a + d = 0 -> (1 < k <-> turns_all a b c d))).
Proof.
  intros W F Ex Ey. unfold get_nk.
  destruct (from_grads_value nk_of None f hx hy W F Ex Ey) as (v & E & _ & _ & P).
  exists v. split; [exact E|]. intros i j a b c d Hi Hj J. rewrite (P i j a b c d Hi Hj J). apply nk_lemma.
Qed.
Lemma delta_mask_lemma eig f hx hy : eigenvalues eig -> vf_wf f -> vf_full f -> evenly (ax (vg f)) hx -> evenly (ay (vg f)) hy ->
  exists v, get_delta eig f = Ok v /\
    forall i j a b c d, (i < length (ax (vg f)))%nat -> (j < length (ay (vg f)))%nat -> jacobian f i j a b c d ->
      (snd (at_ v i j) = false <-> turns_all a b c d).
Proof.
  intros He W F Ex Ey. unfold get_delta.
  destruct (from_grads_value (fun a b c d => let (x, m) := delta_of eig a b c d in (Some x, m)) (None, true) f hx hy W F Ex Ey) as (v & E & _ & _ & P).
  exists v. split; [exact E|]. intros i j a b c d Hi Hj J. rewrite (P i j a b c d Hi Hj J).
  destruct (delta_lemma eig a b c d He) as [D _]. destruct (delta_of eig a b c d). exact D.
Qed.
