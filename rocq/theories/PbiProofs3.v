(** * PbiProofs3: linear fields, and the fields for which the detection is wrong. *)
From Coq Require Import Reals Lra List ZArith Lia Bool.
From Verif Require Import PbiModel PbiSpec PbiProofs PbiProofs2.
Import ListNotations.
#[local] Open Scope R_scope.

(** ** every reported point comes from a cell without masked corner, with a non-null index *)
Lemma cp_sound_lemma : forall eig f pos t, In (pos, t) (cp_cells eig f) ->
  exists i j, (S i < rows f)%nat /\ (S j < cols f)%nat /\ cell_index (ftheta f) i j <> 0 /\
    fmask f i j = false /\ fmask f (S i) j = false /\ fmask f i (S j) = false /\ fmask f (S i) (S j) = false /\
    pos = (fax f j + (fax f 1 - fax f 0) / 2, fay f i + (fay f 1 - fay f 0) / 2) /\
    (t = 0%nat <-> cell_index (ftheta f) i j = -1).
Proof.
  intros eig f pos t H. unfold cp_cells in H. apply in_flat_map in H. destruct H as ([i j] & C & H).
  apply cells_in in C. cbn [fst snd] in C. destruct C as [I J]. exists i, j.
  destruct (cell_filter f i j) eqn:F; [|destruct H]. cbv zeta in H. rewrite struct_cell in H. cbn [fst snd] in H.
  destruct (nzb (cell_index (ftheta f) i j)) eqn:Z; cbn [Nat.eqb andb] in H; [|destruct H].
  destruct H as [H|[]]. injection H as <- <-.
  unfold cell_filter in F. apply andb_true_iff in F. destruct F as [F _]. apply negb_true_iff in F. unfold cell_masked in F.
  apply orb_false_iff in F. destruct F as [F1 F2]. apply orb_false_iff in F1. apply orb_false_iff in F2. destruct F1, F2.
  split; [exact I|]. split; [exact J|].
  split; [unfold nzb in Z; destruct (Req_EM_T (cell_index (ftheta f) i j) 0); [discriminate Z|assumption]|].
  do 4 (split; [assumption|]). split; [cbn [fax fay cell_of]; rewrite !Nat.add_0_r; reflexivity|].
  pose proof (cp_type_saddle eig f i j) as T. unfold is_saddle in T.
  destruct (Req_EM_T (cell_index (ftheta f) i j) (-1)) as [E|E].
  - apply Nat.eqb_eq in T. tauto.
  - apply Nat.eqb_neq in T. tauto.
Qed.
(** without degenerate corner, every cell with a non-null index is reported, once *)
Lemma cp_complete_lemma : forall eig f, regular f ->
  exists l, NoDup l /\ (forall i j, In (i, j) l <-> (S i < rows f)%nat /\ (S j < cols f)%nat /\ cell_index (ftheta f) i j <> 0) /\
    map fst (cp_cells eig f) = map (fun p => (fax f (snd p) + (fax f 1 - fax f 0) / 2, fay f (fst p) + (fay f 1 - fay f 0) / 2)) l.
Proof.
  intros eig f R. exists (filter (fun p => nzb (cell_index (ftheta f) (fst p) (snd p))) (cells (rows f) (cols f))).
  split; [apply NoDup_filter, cells_nodup|]. split.
  - intros i j. rewrite filter_In, cells_in. cbn [fst snd]. unfold nzb. destruct (Req_EM_T (cell_index (ftheta f) i j) 0); intuition congruence.
  - rewrite (cp_cells_regular eig f R), map_map. reflexivity.
Qed.
Lemma even_middle : forall f i j dx dy, even_axis (cols f) (fax f) dx -> even_axis (rows f) (fay f) dy -> (S i < rows f)%nat -> (S j < cols f)%nat ->
  (fax f j + (fax f 1 - fax f 0) / 2, fay f i + (fay f 1 - fay f 0) / 2) = middle f i j.
Proof.
  intros f i j dx dy X Y I J. unfold middle. rewrite (X 0%nat) by lia. rewrite (Y 0%nat) by lia. rewrite <- (X j J), <- (Y i I). f_equal; field.
Qed.

(** ** linear fields *)
Lemma mono_axis : forall n ax, increasing n ax -> forall a b, (a <= b)%nat -> (b < n)%nat -> ax a <= ax b.
Proof.
  intros n ax H a b L. induction L as [|b L IH]; intros B; [lra|]. specialize (IH ltac:(lia)). specialize (H b B). lra.
Qed.
Lemma off_lines : forall n ax c j, increasing n ax -> (S j < n)%nat -> ax j < c < ax (S j) -> forall k, (k < n)%nat -> ax k <> c.
Proof.
  intros n ax c j H J B k K. destruct (Nat.le_gt_cases k j) as [L|L].
  - pose proof (mono_axis n ax H k j L ltac:(lia)). lra.
  - pose proof (mono_axis n ax H (S j) k L K). lra.
Qed.
Lemma jac_nonzero : forall a b c d x y, a * d - b * c <> 0 -> x <> 0 \/ y <> 0 -> a * x + b * y <> 0 \/ c * x + d * y <> 0.
Proof.
  intros a b c d x y D H. destruct (Req_dec (a * x + b * y) 0) as [A|A]; [|left; exact A].
  right. intros B. assert (X : (a * d - b * c) * x = 0) by (replace ((a * d - b * c) * x) with (d * (a * x + b * y) - b * (c * x + d * y)) by ring; rewrite A, B; ring).
  assert (Y : (a * d - b * c) * y = 0) by (replace ((a * d - b * c) * y) with (a * (c * x + d * y) - c * (a * x + b * y)) by ring; rewrite A, B; ring).
  apply Rmult_integral in X. apply Rmult_integral in Y. tauto.
Qed.
Lemma linear_regular : forall m n ax ay a b c d cx cy, a * d - b * c <> 0 ->
  (forall k, (k < n)%nat -> ax k <> cx) -> (forall k, (k < m)%nat -> ay k <> cy) -> regular (linear_vf m n ax ay a b c d cx cy).
Proof.
  intros m n ax ay a b c d cx cy D X Y. split.
  - intros i j _ _. split; reflexivity.
  - intros [i j] [r s] [P1 P2] [Q1 Q2] NB t T. unfold vel. cbn [fst snd fvx fvy linear_vf vf_of rows cols] in *. unfold neighbours in NB. cbn [fst snd] in NB.
    set (x := (1 - t) * (ax j - cx) + t * (ax s - cx)). set (y := (1 - t) * (ay i - cy) + t * (ay r - cy)).
    replace ((1 - t) * (a * (ax j - cx) + b * (ay i - cy)) + t * (a * (ax s - cx) + b * (ay r - cy))) with (a * x + b * y) by (unfold x, y; ring).
    replace ((1 - t) * (c * (ax j - cx) + d * (ay i - cy)) + t * (c * (ax s - cx) + d * (ay r - cy))) with (c * x + d * y) by (unfold x, y; ring).
    apply jac_nonzero; [exact D|]. destruct NB as [[E _]|[E _]]; subst.
    + right. unfold y. replace ((1 - t) * (ay r - cy) + t * (ay r - cy)) with (ay r - cy) by ring. specialize (Y r Q1). lra.
    + left. unfold x. replace ((1 - t) * (ax s - cx) + t * (ax s - cx)) with (ax s - cx) by ring. specialize (X s Q2). lra.
Qed.
Lemma linear_vel : forall m n ax ay a b c d cx cy i j,
  vel (linear_vf m n ax ay a b c d cx cy) (i, j) = (a * (ax j - cx) + b * (ay i - cy), c * (ax j - cx) + d * (ay i - cy)).
Proof. reflexivity. Qed.
(** a cell on one side of the point *)
Lemma linear_side : forall m n ax ay a b c d cx cy r s (n1 n2 : R), a * d - b * c <> 0 ->
  regular (linear_vf m n ax ay a b c d cx cy) -> (S r < m)%nat -> (S s < n)%nat ->
  (forall e g, (e < 2)%nat -> (g < 2)%nat -> 0 < n1 * (ax (s + g)%nat - cx) + n2 * (ay (r + e)%nat - cy)) ->
  cell_index (ftheta (linear_vf m n ax ay a b c d cx cy)) r s = 0.
Proof.
  intros m n ax ay a b c d cx cy r s n1 n2 D R I J H. set (f := linear_vf m n ax ay a b c d cx cy) in *.
  set (dt := a * d - b * c) in *.
  set (e := (dt * (d * n1 - c * n2), dt * (- b * n1 + a * n2))).
  assert (G : forall k g, (k < 2)%nat -> (g < 2)%nat -> 0 < dot e (vel f (r + k, s + g)%nat)).
  { intros k g K1 K2. specialize (H k g K1 K2). unfold f. rewrite linear_vel. unfold dot, e. cbn [fst snd].
    set (x := ax (s + g)%nat - cx) in *. set (y := ay (r + k)%nat - cy) in *.
    replace (dt * (d * n1 - c * n2) * (a * x + b * y) + dt * (- b * n1 + a * n2) * (c * x + d * y)) with (dt * dt * (n1 * x + n2 * y)) by (unfold dt; ring).
    apply Rmult_lt_0_compat; [|exact H]. apply (Rsqr_pos_lt dt D). }
  apply (half_cell e (fun a b => vel f (a, b)) (ftheta f) r s).
  - pose proof (G 0%nat 0%nat ltac:(lia) ltac:(lia)) as P. unfold dot in P.
    destruct (Req_dec (fst e) 0) as [E1|E1]; [|left; exact E1]. right. intros E2. rewrite E1, E2 in P. lra.
  - apply vel_cell_clear; assumption.
  - intros k g K1 K2. split; [apply regular_theta; assumption|]. left. apply G; assumption.
Qed.
Lemma filter_single : forall (A : Type) (P : A -> bool) (l : list A) x, NoDup l -> In x l -> (forall y, In y l -> P y = true <-> y = x) -> filter P l = [x].
Proof.
  intros A P l x N. induction N as [|y l Y N IH]; intros I H; [destruct I|]. cbn.
  destruct (P y) eqn:E.
  - assert (y = x) by (apply H; [left; reflexivity|exact E]). subst y. f_equal.
    assert (Z : forall z, In z l -> P z = false).
    { intros z K. destruct (P z) eqn:F; [|reflexivity]. apply H in F; [subst; contradiction|right; exact K]. }
    clear - Z. induction l as [|z l IH]; [reflexivity|]. cbn. rewrite Z by (left; reflexivity). apply IH. intros; apply Z. right. assumption.
  - destruct I as [->|I].
    + assert (P x = true) by (apply H; [left; reflexivity|reflexivity]). congruence.
    + apply IH; [exact I|]. intros z K. apply H. right. exact K.
Qed.
Lemma linear_cell : forall m n ax ay a b c d cx cy i j, a * d - b * c <> 0 -> increasing n ax -> increasing m ay ->
  (S i < m)%nat -> (S j < n)%nat -> ax j < cx < ax (S j) -> ay i < cy < ay (S i) ->
  let f := linear_vf m n ax ay a b c d cx cy in
  regular f /\ cell_index (ftheta f) i j = (if Rlt_dec (a * d - b * c) 0 then -1 else 1) /\
  (forall r s, (S r < m)%nat -> (S s < n)%nat -> (r, s) <> (i, j) -> cell_index (ftheta f) r s = 0).
Proof.
  intros m n ax ay a b c d cx cy i j D IX IY I J BX BY f.
  assert (R : regular f) by (apply linear_regular; [exact D|apply (off_lines n ax cx j); assumption|apply (off_lines m ay cy i); assumption]).
  split; [exact R|]. split.
  - pose proof (vel_cell_clear f i j R I J) as CC. pose proof (regular_theta f R i j I J) as T.
    set (s := if Rlt_dec (a * d - b * c) 0 then -1 else 1).
    assert (HS : s = 1 \/ s = -1) by (unfold s; destruct (Rlt_dec (a * d - b * c) 0); auto).
    assert (SD : 0 < s * (a * d - b * c)) by (unfold s; destruct (Rlt_dec (a * d - b * c) 0); lra).
    assert (CR : forall x y x' y', cross (a * x + b * y, c * x + d * y) (a * x' + b * y', c * x' + d * y') = (a * d - b * c) * (x * y' - y * x')) by (intros; unfold cross; cbn [fst snd]; ring).
    apply (turn_cell s (fun a b => vel f (a, b)) (ftheta f) i j HS CC T); unfold f; rewrite !linear_vel, CR; rewrite <- Rmult_assoc; (apply Rmult_lt_0_compat; [exact SD|]).
    + replace ((ax j - cx) * (ay i - cy) - (ay (S i) - cy) * (ax j - cx)) with ((cx - ax j) * (ay (S i) - ay i)) by ring. apply Rmult_lt_0_compat; lra.
    + replace ((ax j - cx) * (ay i - cy) - (ay i - cy) * (ax (S j) - cx)) with ((cy - ay i) * (ax (S j) - ax j)) by ring. apply Rmult_lt_0_compat; lra.
    + replace ((ax (S j) - cx) * (ay (S i) - cy) - (ay i - cy) * (ax (S j) - cx)) with ((ax (S j) - cx) * (ay (S i) - ay i)) by ring. apply Rmult_lt_0_compat; lra.
    + replace ((ax (S j) - cx) * (ay (S i) - cy) - (ay (S i) - cy) * (ax j - cx)) with ((ay (S i) - cy) * (ax (S j) - ax j)) by ring. apply Rmult_lt_0_compat; lra.
  - intros r s Hr Hs NE.
    assert (K : (s < j \/ j < s \/ r < i \/ i < r)%nat).
    { destruct (Nat.lt_trichotomy s j) as [|[->|]]; [tauto| |tauto]. destruct (Nat.lt_trichotomy r i) as [|[->|]]; [tauto|exfalso; apply NE; reflexivity|tauto]. }
    destruct K as [K|[K|[K|K]]].
    + apply (linear_side m n ax ay a b c d cx cy r s (-1) 0 D R Hr Hs). intros e g He Hg.
      pose proof (mono_axis n ax IX (s + g) j ltac:(lia) ltac:(lia)). lra.
    + apply (linear_side m n ax ay a b c d cx cy r s 1 0 D R Hr Hs). intros e g He Hg.
      pose proof (mono_axis n ax IX (S j) (s + g) ltac:(lia) ltac:(lia)). lra.
    + apply (linear_side m n ax ay a b c d cx cy r s 0 (-1) D R Hr Hs). intros e g He Hg.
      pose proof (mono_axis m ay IY (r + e) i ltac:(lia) ltac:(lia)). lra.
    + apply (linear_side m n ax ay a b c d cx cy r s 0 1 D R Hr Hs). intros e g He Hg.
      pose proof (mono_axis m ay IY (S i) (r + e) ltac:(lia) ltac:(lia)). lra.
Qed.
Lemma linear_list : forall eig m n ax ay a b c d cx cy i j, a * d - b * c <> 0 -> increasing n ax -> increasing m ay ->
  (S i < m)%nat -> (S j < n)%nat -> ax j < cx < ax (S j) -> ay i < cy < ay (S i) ->
  let f := linear_vf m n ax ay a b c d cx cy in
  cp_cells eig f = [((ax j + (ax 1%nat - ax 0%nat) / 2, ay i + (ay 1%nat - ay 0%nat) / 2), cp_type eig (cell_of f i j))].
Proof.
  intros eig m n ax ay a b c d cx cy i j D IX IY I J BX BY f.
  destruct (linear_cell m n ax ay a b c d cx cy i j D IX IY I J BX BY) as (R & C1 & C2). fold f in R, C1, C2.
  rewrite (cp_cells_regular eig f R). rewrite (filter_single _ _ _ (i, j)); [reflexivity|apply cells_nodup|apply cells_in; cbn [fst snd]; split; assumption|].
  intros [r s] H. apply cells_in in H. cbn [fst snd] in *. destruct H as [Hr Hs]. change (rows f) with m in Hr. change (cols f) with n in Hs. split.
  - intros Z. destruct (Nat.eq_dec r i) as [->|N1]; [destruct (Nat.eq_dec s j) as [->|N2]; [reflexivity|]|];
    exfalso; rewrite C2 in Z by (try assumption; congruence); unfold nzb in Z; destruct (Req_EM_T 0 0); [discriminate|lra|discriminate|lra].
  - intros E. injection E as -> ->. rewrite C1. unfold nzb. destruct (Rlt_dec (a * d - b * c) 0); [destruct (Req_EM_T (-1) 0)|destruct (Req_EM_T 1 0)]; try reflexivity; lra.
Qed.
Lemma linear_located_lemma : forall eig m n ax ay a b c d cx cy i j, a * d - b * c <> 0 -> increasing n ax -> increasing m ay ->
  (S i < m)%nat -> (S j < n)%nat -> ax j < cx < ax (S j) -> ay i < cy < ay (S i) ->
  exists t, cp_cells eig (linear_vf m n ax ay a b c d cx cy) = [((ax j + (ax 1%nat - ax 0%nat) / 2, ay i + (ay 1%nat - ay 0%nat) / 2), t)] /\
    (t = 0%nat <-> a * d - b * c < 0).
Proof.
  intros eig m n ax ay a b c d cx cy i j D IX IY I J BX BY. eexists. split; [apply linear_list; assumption|].
  destruct (linear_cell m n ax ay a b c d cx cy i j D IX IY I J BX BY) as (R & C1 & _).
  pose proof (cp_type_saddle eig (linear_vf m n ax ay a b c d cx cy) i j) as T. rewrite C1 in T. unfold is_saddle in T.
  destruct (Rlt_dec (a * d - b * c) 0) as [L|L]; [destruct (Req_EM_T (-1) (-1)); [|lra]|destruct (Req_EM_T 1 (-1)); [lra|]].
  - apply Nat.eqb_eq in T. tauto.
  - apply Nat.eqb_neq in T. tauto.
Qed.
(** with evenly spaced axes the reported position is less than half a cell away *)
Lemma linear_near_lemma : forall eig m n ax ay a b c d cx cy i j dx dy, a * d - b * c <> 0 -> even_axis n ax dx -> even_axis m ay dy -> 0 < dx -> 0 < dy ->
  (S i < m)%nat -> (S j < n)%nat -> ax j < cx < ax (S j) -> ay i < cy < ay (S i) ->
  exists x y t, cp_cells eig (linear_vf m n ax ay a b c d cx cy) = [((x, y), t)] /\ Rabs (x - cx) < dx / 2 /\ Rabs (y - cy) < dy / 2 /\
    (t = 0%nat <-> a * d - b * c < 0).
Proof.
  intros eig m n ax ay a b c d cx cy i j dx dy D EX EY PX PY I J BX BY.
  assert (IX : increasing n ax) by (intros k K; specialize (EX k K); lra).
  assert (IY : increasing m ay) by (intros k K; specialize (EY k K); lra).
  destruct (linear_located_lemma eig m n ax ay a b c d cx cy i j D IX IY I J BX BY) as (t & E & T).
  do 3 eexists. split; [exact E|]. pose proof (EX 0%nat ltac:(lia)) as X0. pose proof (EY 0%nat ltac:(lia)) as Y0. pose proof (EX j J) as XJ. pose proof (EY i I) as YI.
  rewrite X0, Y0. split; [apply Rabs_def1; lra|]. split; [apply Rabs_def1; lra|exact T].
Qed.
Lemma linear_cptype : forall eig m n ax ay a b c d cx cy i j, 0 < a * d - b * c -> increasing n ax -> increasing m ay ->
  (S i < m)%nat -> (S j < n)%nat -> ax j < cx < ax (S j) -> ay i < cy < ay (S i) ->
  let dx := ax (S j) - ax j in let dy := ay (S i) - ay i in
  cp_type eig (cell_of (linear_vf m n ax ay a b c d cx cy) i j) =
    let (l1, l2) := eig (a * dx) (b * dy) (c * dx) (d * dy) in
    if Req_EM_T (Rabs (snd l1) + Rabs (snd l2)) 0 then (if Rle_dec 0 (fst l1) then 3%nat else 4%nat) else if Rlt_dec (c * dx) 0 then 1%nat else 2%nat.
Proof.
  intros eig m n ax ay a b c d cx cy i j D IX IY I J BX BY dx dy.
  destruct (linear_cell m n ax ay a b c d cx cy i j ltac:(lra) IX IY I J BX BY) as (R & C1 & _).
  unfold cp_type. rewrite pbi_cell. cbn [nth]. rewrite C1. destruct (Rlt_dec (a * d - b * c) 0); [lra|].
  change (- (1)) with (-1). destruct (Req_EM_T 1 (-1)); [lra|].
  set (f := linear_vf m n ax ay a b c d cx cy).
  assert (E1 : mean_dx (fvx (cell_of f i j)) = a * dx) by (unfold mean_dx, dx; cbn [fvx cell_of f linear_vf vf_of]; rewrite !Nat.add_0_r, !Nat.add_1_r; field).
  assert (E2 : mean_dy (fvx (cell_of f i j)) = b * dy) by (unfold mean_dy, dy; cbn [fvx cell_of f linear_vf vf_of]; rewrite !Nat.add_0_r, !Nat.add_1_r; field).
  assert (E3 : mean_dx (fvy (cell_of f i j)) = c * dx) by (unfold mean_dx, dx; cbn [fvy cell_of f linear_vf vf_of]; rewrite !Nat.add_0_r, !Nat.add_1_r; field).
  assert (E4 : mean_dy (fvy (cell_of f i j)) = d * dy) by (unfold mean_dy, dy; cbn [fvy cell_of f linear_vf vf_of]; rewrite !Nat.add_0_r, !Nat.add_1_r; field).
  rewrite E1, E2, E3, E4. reflexivity.
Qed.
(** eigenvalues of a real matrix: real, or conjugate *)
Lemma eigen_cases : forall eig a b c d, eigen_ok eig -> let '((r1, i1), (r2, i2)) := eig a b c d in
  (i1 = 0 /\ i2 = 0 /\ r1 + r2 = a + d /\ r1 * r2 = a * d - b * c) \/ (i1 <> 0 /\ (a - d) * (a - d) + 4 * b * c < 0).
Proof.
  intros eig a b c d H. specialize (H a b c d). destruct (eig a b c d) as [[r1 i1] [r2 i2]]. destruct H as (H1 & H2 & H3 & H4).
  assert (i2 = - i1) by lra. subst i2. destruct (Req_dec i1 0) as [->|N].
  - left. repeat split; lra.
  - right. split; [exact N|]. assert (r1 = r2) by (apply (Rmult_eq_reg_l i1); [lra|exact N]). subst r2.
    assert (0 < i1 * i1) by (apply (Rsqr_pos_lt i1 N)).
    replace ((a - d) * (a - d) + 4 * b * c) with ((a + d) * (a + d) - 4 * (a * d - b * c)) by ring. rewrite <- H1, <- H3. nra.
Qed.
Lemma mu_zero : forall x y : R, Rabs x + Rabs y = 0 <-> x = 0 /\ y = 0.
Proof.
  intros x y. split.
  - intros H. pose proof (Rabs_pos x). pose proof (Rabs_pos y). split; [destruct (Req_dec x 0) as [|N]; [assumption|]; pose proof (Rabs_pos_lt x N); lra|destruct (Req_dec y 0) as [|N]; [assumption|]; pose proof (Rabs_pos_lt y N); lra].
  - intros [-> ->]. rewrite Rabs_R0. ring.
Qed.
Lemma linear_types_lemma : forall eig m n ax ay a b c d cx cy i j h, eigen_ok eig -> 0 < a * d - b * c -> even_axis n ax h -> even_axis m ay h -> 0 < h ->
  (S i < m)%nat -> (S j < n)%nat -> ax j < cx < ax (S j) -> ay i < cy < ay (S i) ->
  exists pos t, cp_cells eig (linear_vf m n ax ay a b c d cx cy) = [(pos, t)] /\
    (t = 3%nat <-> (exists l, real_eigenvalue a b c d l) /\ forall l, real_eigenvalue a b c d l -> 0 < l) /\
    (t = 4%nat <-> (exists l, real_eigenvalue a b c d l) /\ forall l, real_eigenvalue a b c d l -> l < 0) /\
    (t = 1%nat <-> (forall l, ~ real_eigenvalue a b c d l) /\ c < 0) /\
    (t = 2%nat <-> (forall l, ~ real_eigenvalue a b c d l) /\ 0 < c).
Proof.
  intros eig m n ax ay a b c d cx cy i j h EO D EX EY PH I J BX BY.
  assert (IX : increasing n ax) by (intros k K; specialize (EX k K); lra).
  assert (IY : increasing m ay) by (intros k K; specialize (EY k K); lra).
  do 2 eexists. split; [apply (linear_list eig m n ax ay a b c d cx cy i j ltac:(lra) IX IY I J BX BY)|].
  rewrite (linear_cptype eig m n ax ay a b c d cx cy i j D IX IY I J BX BY). cbv zeta.
  rewrite (EX j J), (EY i I).
  pose proof (eigen_cases eig (a * h) (b * h) (c * h) (d * h) EO) as EC. destruct (eig (a * h) (b * h) (c * h) (d * h)) as [[r1 i1] [r2 i2]]. cbn [fst snd].
  assert (HH : 0 < h * h) by (apply Rmult_lt_0_compat; exact PH).
  destruct EC as [(-> & -> & S1 & P1)|(N & DS)].
  - destruct (Req_EM_T (Rabs 0 + Rabs 0) 0) as [_|X]; [|exfalso; apply X; rewrite Rabs_R0; ring].
    set (l1 := r1 / h) in *. set (l2 := r2 / h).
    assert (R1 : r1 = l1 * h) by (unfold l1; field; lra). assert (R2 : r2 = l2 * h) by (unfold l2; field; lra).
    assert (S2 : l1 + l2 = a + d) by (apply (Rmult_eq_reg_r h); [rewrite R1, R2 in S1; lra|lra]).
    assert (P2 : l1 * l2 = a * d - b * c) by (apply (Rmult_eq_reg_r (h * h)); [rewrite R1, R2 in P1; lra|lra]).
    assert (RE : forall l, real_eigenvalue a b c d l <-> l = l1 \/ l = l2).
    { intros l. unfold real_eigenvalue. replace ((a - l) * (d - l) - b * c) with ((l - l1) * (l - l2)).
      - split; [intros K; apply Rmult_integral in K; destruct K; [left|right]; lra|intros [-> | ->]; ring].
      - replace ((a - l) * (d - l) - b * c) with (l * l - (a + d) * l + (a * d - b * c)) by ring. rewrite <- S2, <- P2. ring. }
    assert (L12 : (0 < l1 /\ 0 < l2) \/ (l1 < 0 /\ l2 < 0)) by (assert (PP : 0 < l1 * l2) by lra; clear - PP; destruct (Rtotal_order l1 0) as [K|[K|K]]; [right; split; nra|subst; rewrite K in PP; lra|left; split; nra]).
    assert (EXI : exists l, real_eigenvalue a b c d l) by (exists l1; apply RE; auto).
    assert (NO : ~ forall l, ~ real_eigenvalue a b c d l) by (intros K; destruct EXI as [l El]; exact (K l El)).
    destruct (Rle_dec 0 r1) as [Z|Z].
    + assert (0 < l1 /\ 0 < l2) as [Q1 Q2] by (destruct L12 as [|[]]; [assumption|nra]).
      assert (AP : forall l, real_eigenvalue a b c d l -> 0 < l) by (intros l K; apply RE in K; destruct K as [-> | ->]; assumption).
      split; [tauto|]. split; [split; [discriminate|]; intros [_ K]; specialize (K l1 (proj2 (RE l1) (or_introl eq_refl))); lra|].
      split; (split; [discriminate|]; intros [K _]; contradiction).
    + assert (l1 < 0 /\ l2 < 0) as [Q1 Q2] by (destruct L12 as [[]|]; [nra|assumption]).
      assert (AP : forall l, real_eigenvalue a b c d l -> l < 0) by (intros l K; apply RE in K; destruct K as [-> | ->]; assumption).
      split; [split; [discriminate|]; intros [_ K]; specialize (K l1 (proj2 (RE l1) (or_introl eq_refl))); lra|]. split; [tauto|].
      split; (split; [discriminate|]; intros [K _]; contradiction).
  - destruct (Req_EM_T (Rabs i1 + Rabs i2) 0) as [X|_]; [exfalso; apply mu_zero in X; tauto|].
    assert (DS' : (a - d) * (a - d) + 4 * b * c < 0) by (apply (Rmult_lt_reg_r (h * h)); [exact HH|lra]).
    assert (NR : forall l, ~ real_eigenvalue a b c d l).
    { intros l K. unfold real_eigenvalue in K. pose proof (Rle_0_sqr (2 * l - (a + d))) as Q. unfold Rsqr in Q. nra. }
    assert (C0 : c <> 0) by (intros ->; pose proof (Rle_0_sqr (a - d)) as Q; unfold Rsqr in Q; lra).
    destruct (Rlt_dec (c * h) 0) as [L|L].
    + assert (c < 0) by (apply (Rmult_lt_reg_r h); lra).
      split; [split; [discriminate|intros [[l K] _]; exfalso; exact (NR l K)]|]. split; [split; [discriminate|intros [[l K] _]; exfalso; exact (NR l K)]|].
      split; [tauto|]. split; [discriminate|]. intros [_ K]. lra.
    + assert (0 < c) by (destruct (Rtotal_order c 0) as [K|[K|K]]; [exfalso; apply L; nra|contradiction|exact K]).
      split; [split; [discriminate|intros [[l K] _]; exfalso; exact (NR l K)]|]. split; [split; [discriminate|intros [[l K] _]; exfalso; exact (NR l K)]|].
      split; [|tauto]. split; [discriminate|]. intros [_ K]. lra.
Qed.

(** an eigenvalue routine exists *)
Definition eig2 (a b c d : R) : (R * R) * (R * R) :=
  let s := (a + d) / 2 in let q := s * s - (a * d - b * c) in
  if Rle_dec 0 q then ((s + sqrt q, 0), (s - sqrt q, 0)) else ((s, sqrt (- q)), (s, - sqrt (- q))).
Lemma eig2_ok : eigen_ok eig2.
Proof.
  intros a b c d. unfold eig2. set (s := (a + d) / 2). set (q := s * s - (a * d - b * c)).
  destruct (Rle_dec 0 q) as [H|H].
  - pose proof (sqrt_sqrt q H) as E. repeat split; try (unfold s; field). replace ((s + sqrt q) * (s - sqrt q) - 0 * 0) with (s * s - sqrt q * sqrt q) by ring. rewrite E. unfold q. ring.
  - pose proof (sqrt_sqrt (- q) ltac:(lra)) as E. repeat split; try (unfold s; field); try ring. replace (s * s - sqrt (- q) * - sqrt (- q)) with (s * s + sqrt (- q) * sqrt (- q)) by ring. rewrite E. unfold q. ring.
Qed.

(** ** fields for which the detection is wrong *)
(** a focus that is stable is given the number of the unstable ones *)
Lemma focus_stable_lemma : forall eig, eigen_ok eig ->
  exists pos, cp_cells eig (linear_vf 2 2 INR INR (-1) 1 (-1) (-1) (1/2) (1/2)) = [(pos, 1%nat)] /\ -1 + -1 < 0 /\ forall l, ~ real_eigenvalue (-1) 1 (-1) (-1) l.
Proof.
  intros eig EO.
  assert (EV : even_axis 2 INR 1) by (intros i H; rewrite S_INR; ring).
  destruct (linear_types_lemma eig 2 2 INR INR (-1) 1 (-1) (-1) (1/2) (1/2) 0 0 1 EO ltac:(lra) EV EV ltac:(lra) ltac:(lia) ltac:(lia)) as (pos & t & E & _ & _ & T & _); [cbn; lra|cbn; lra|].
  assert (NR : forall l, ~ real_eigenvalue (-1) 1 (-1) (-1) l) by (intros l K; unfold real_eigenvalue in K; nra).
  exists pos. rewrite E. replace t with 1%nat by (symmetry; apply T; split; [exact NR|lra]). split; [reflexivity|]. split; [lra|exact NR].
Qed.
(** on cells that are not square a focus can be reported as a node *)
Lemma stretched_lemma : forall eig, eigen_ok eig ->
  exists pos, cp_cells eig (linear_vf 2 2 INR (fun i => 3 * INR i) 1 (-1) 2 3 (1/2) (3/2)) = [(pos, 3%nat)] /\ forall l, ~ real_eigenvalue 1 (-1) 2 3 l.
Proof.
  intros eig EO.
  assert (IX : increasing 2 INR) by (intros i H; rewrite S_INR; lra).
  assert (IY : increasing 2 (fun i => 3 * INR i)) by (intros i H; rewrite S_INR; lra).
  rewrite (linear_list eig 2 2 INR (fun i => 3 * INR i) 1 (-1) 2 3 (1/2) (3/2) 0 0 ltac:(lra) IX IY ltac:(lia) ltac:(lia)) by (cbn; lra).
  eexists. split.
  - f_equal. f_equal.
    rewrite (linear_cptype eig 2 2 INR (fun i => 3 * INR i) 1 (-1) 2 3 (1/2) (3/2) 0 0 ltac:(lra) IX IY ltac:(lia) ltac:(lia)) by (cbn; lra). cbv zeta.
    replace (INR 1 - INR 0) with 1 by (cbn; ring). replace (3 * INR 1 - 3 * INR 0) with 3 by (cbn; ring).
    pose proof (eigen_cases eig (1 * 1) (-1 * 3) (2 * 1) (3 * 3) EO) as EC. destruct (eig (1 * 1) (-1 * 3) (2 * 1) (3 * 3)) as [[r1 i1] [r2 i2]]. cbn [fst snd].
    destruct EC as [(-> & -> & S1 & P1)|(N & DS)]; [|lra].
    destruct (Req_EM_T (Rabs 0 + Rabs 0) 0) as [_|X]; [|exfalso; apply X; rewrite Rabs_R0; ring].
    destruct (Rle_dec 0 r1); [reflexivity|nra].
  - intros l K. unfold real_eigenvalue in K. pose proof (Rle_0_sqr (l - 2)) as Q. unfold Rsqr in Q. lra.
Qed.
(** with uneven axes the reported position can be out of the field *)
Definition uneven (i : nat) : R := match i with O => 0 | 1%nat => 10 | _ => 11 end.
Lemma uneven_lemma : forall eig, exists y t, cp_cells eig (linear_vf 2 3 uneven INR 0 (-1) 1 0 (21/2) (1/2)) = [((15, y), t)].
Proof.
  intros eig.
  assert (IX : increasing 3 uneven) by (intros [|[|i]] H; cbn; try lra; lia).
  assert (IY : increasing 2 INR) by (intros i H; rewrite S_INR; lra).
  rewrite (linear_list eig 2 3 uneven INR 0 (-1) 1 0 (21/2) (1/2) 0 1 ltac:(lra) IX IY ltac:(lia) ltac:(lia)) by (cbn; lra).
  do 2 eexists. f_equal. f_equal. f_equal. cbn. lra.
Qed.
(** the filter drops a cell of index 1 whose lower edge has opposite velocities *)
Definition skipped : vf :=
  vf_of 2 2 (fun j i => match i, j with 1%nat, O => 1 | O, O => -1 | _, _ => 0 end) (fun j i => match j with O => 0 | _ => -1 end) (fun _ _ => false) INR INR.
Lemma theta_right : theta_of 1 0 = 0.
Proof. unfold theta_of, magnitude. replace (1 * 1 + 0 * 0) with 1 by ring. rewrite sqrt_1. destruct (Req_EM_T 1 0); [lra|]. destruct (Rlt_dec 0 0); [lra|]. replace (1 / 1) with 1 by field. apply acos_1. Qed.
Lemma theta_left : theta_of (-1) 0 = PI.
Proof. unfold theta_of, magnitude. replace (-1 * -1 + 0 * 0) with 1 by ring. rewrite sqrt_1. destruct (Req_EM_T 1 0); [lra|]. destruct (Rlt_dec 0 0); [lra|]. replace (-1 / 1) with (Ropp 1) by field. rewrite acos_opp, acos_1. ring. Qed.
Lemma theta_down : theta_of 0 (-1) = 2 * PI - PI / 2.
Proof. unfold theta_of, magnitude. replace (0 * 0 + -1 * -1) with 1 by ring. rewrite sqrt_1. destruct (Req_EM_T 1 0); [lra|]. destruct (Rlt_dec (-1) 0); [|lra]. replace (0 / 1) with 0 by field. rewrite acos_0. reflexivity. Qed.
Lemma skipped_lemma : (forall i j, fmask skipped i j = false) /\ (forall i j, (i < 2)%nat -> (j < 2)%nat -> fvx skipped i j <> 0 \/ fvy skipped i j <> 0) /\
  cell_index (ftheta skipped) 0 0 = 1 /\ forall eig, cp_cells eig skipped = [].
Proof.
  split; [reflexivity|]. split; [intros [|[|i]] [|j] A B; try lia; cbn; first [left; lra|right; lra]|]. split.
  - rewrite cell_index_W. unfold cellW, skipped; cbn [ftheta vf_of].
    rewrite theta_right, theta_left, theta_down. pose proof PI_RGT_0 as P. unfold W, wrap.
    repeat match goal with |- context [Rlt_dec ?a ?b] => destruct (Rlt_dec a b); try lra end; field; lra.
  - intros eig. unfold cp_cells, cells. cbn [rows cols skipped vf_of Nat.sub seq flat_map map app].
    assert (F : cell_filter skipped 0 0 = false).
    { unfold cell_filter. apply andb_false_iff. right. apply andb_false_iff. right. unfold crosses0, pos01, skipped; cbn [fvy vf_of].
      destruct (Rlt_dec 0 0); [lra|]. destruct (Rlt_dec 0 (-1)); [lra|]. reflexivity. }
    rewrite F. reflexivity.
Qed.

(** ** statements *)
Lemma pbi_exact_lemma : forall th m n i, (0 < i < n)%nat -> (0 < m)%nat ->
  exists z : Z, pbi_sum th m i = 2 * PI * IZR z /\ nth i (pbi_x th m n) 0 = IZR z.
Proof.
  intros th m n i [I0 I] M. destruct (pbi_x_nth th m n i I M) as [E _]. rewrite E. destruct i as [|i]; [lia|]. destruct m as [|m]; [lia|].
  rewrite pbi_sum_around. destruct (around_int th (S m) (S i)) as [z Ez]. exists z. split; [exact Ez|]. rewrite Ez. field. pose proof PI_RGT_0. lra.
Qed.
Lemma angle_exists_lemma : forall u v, clear_edge u v -> exists a, signed_angle u v a /\ forall b, signed_angle u v b -> b = a.
Proof.
  intros u v H. exists (W (TH u) (TH v)). split; [apply W_clear; exact H|]. intros b B. destruct (clear_nonzero u v H) as [U V].
  apply (signed_angle_unique u v); [exact U|exact V|exact B|apply W_clear; exact H].
Qed.
Lemma whole_border_y : forall th m n, (0 < m)%nat -> (0 < n)%nat -> nth 0 (pbi_y th m n) 0 = nth (n - 1) (pbi_x th m n) 0.
Proof.
  intros th m n M N. rewrite pbi_y_cells, pbi_x_cells by lia. rewrite Nat.sub_0_r. reflexivity.
Qed.
