(** * PropPbi: the detection of critical points with the index of Poincare-Bendixson (C50, C51, C94, C95).
    Statements, examples and counterexamples; the proofs are in PbiProofs*.v.  The vocabulary is in PbiSpec: [around] is a
    sum along the border of a rectangle of the grid, [cell_index] the index of one cell, [signed_angle] the angle from a
    vector to another one, [regular] says that no value is masked and that the velocity, interpolated between neighbours,
    does not vanish on the lines of the grid.  The real numbers of the standard library are used, with its axioms. *)
From Coq Require Import Reals Lra List ZArith Lia Bool.
From Verif Require Import PbiModel PbiSpec PbiProofs PbiProofs2 PbiProofs3.
Import ListNotations.
#[local] Open Scope R_scope.

(** ** C50: the index *)
Theorem C50_integer :
  forall th m n i, (0 < i < n)%nat -> (0 < m)%nat ->
  exists z : Z, pbi_sum th m i = 2 * PI * IZR z /\ nth i (pbi_x th m n) 0 = IZR z.
Proof. exact pbi_exact_lemma. Qed.
Print Assumptions C50_integer.

Theorem C50_cell :
  forall th i j, angles 2 2 (fun a b => th (i + a)%nat (j + b)%nat) ->
  cell_index th i j = -1 \/ cell_index th i j = 0 \/ cell_index th i j = 1.
Proof. exact cell_range. Qed.
Print Assumptions C50_cell.

Theorem C50_columns :
  forall th m n i, (i < n)%nat -> (0 < m)%nat ->
  nth i (pbi_x th m n) 0 = sumn (m - 1) (fun r => sumn i (fun c => cell_index th r c)).
Proof. exact pbi_x_cells. Qed.
Print Assumptions C50_columns.

Theorem C50_rows :
  forall th m n j, (j < m)%nat -> (0 < n)%nat ->
  nth j (pbi_y th m n) 0 = sumn (m - 1 - j) (fun r => sumn (n - 1) (fun c => cell_index th (j + r)%nat c)).
Proof. exact pbi_y_cells. Qed.
Print Assumptions C50_rows.

Theorem C50_whole_border :
  forall th m n, (0 < m)%nat -> (0 < n)%nat -> nth 0 (pbi_y th m n) 0 = nth (n - 1) (pbi_x th m n) 0.
Proof. exact whole_border_y. Qed.
Print Assumptions C50_whole_border.

Theorem C50_angle :
  forall u v, clear_edge u v -> exists a, signed_angle u v a /\ forall b, signed_angle u v b -> b = a.
Proof. exact angle_exists_lemma. Qed.
Print Assumptions C50_angle.

Theorem C50_winding :
  forall f ang i, regular f -> (0 < rows f)%nat -> (0 < i < cols f)%nat ->
  (forall p q, inside (rows f) (cols f) p -> inside (rows f) (cols f) q -> neighbours p q -> signed_angle (vel f p) (vel f q) (ang p q)) ->
  nth i (pbi_x (ftheta f) (rows f) (cols f)) 0 = around ang (rows f) i / (2 * PI).
Proof. exact pbi_winding_lemma. Qed.
Print Assumptions C50_winding.

(** the velocities that turn around the middle of the cell number (0, 1) of a grid of 3 x 4 points *)
Lemma turning_regular : regular (linear_vf 3 4 INR INR 0 (-1) 1 0 (3/2) (1/2)).
Proof.
  apply linear_regular; [lra| |].
  - intros [|[|[|[|k]]]] K; cbn; try lra; lia.
  - intros [|[|[|k]]] K; cbn; try lra; lia.
Qed.
Example C50_example :
  let f := linear_vf 3 4 INR INR 0 (-1) 1 0 (3/2) (1/2) in
  regular f /\ map (fun i => nth i (pbi_x (ftheta f) 3 4) 0) [0%nat; 1%nat; 2%nat; 3%nat] = [0; 0; 1; 1].
Proof.
  cbv zeta. split; [apply turning_regular|].
  assert (IX : increasing 4 INR) by (intros i H; rewrite S_INR; lra).
  assert (IY : increasing 3 INR) by (intros i H; rewrite S_INR; lra).
  destruct (linear_cell 3 4 INR INR 0 (-1) 1 0 (3/2) (1/2) 0 1 ltac:(lra) IX IY ltac:(lia) ltac:(lia) ltac:(cbn; lra) ltac:(cbn; lra)) as (_ & C1 & C2).
  cbn [map]. rewrite !pbi_x_cells by lia. cbn [sumn Nat.sub].
  rewrite C1. rewrite !C2 by (try lia; congruence). destruct (Rlt_dec (0 * 0 - -1 * 1) 0); [lra|].
  repeat (f_equal; try ring).
Qed.

(** ** C51: the filter *)
Theorem C51_sound :
  forall eig f pos t, In (pos, t) (cp_cells eig f) ->
  exists i j, (S i < rows f)%nat /\ (S j < cols f)%nat /\ cell_index (ftheta f) i j <> 0 /\
    fmask f i j = false /\ fmask f (S i) j = false /\ fmask f i (S j) = false /\ fmask f (S i) (S j) = false /\
    pos = (fax f j + (fax f 1 - fax f 0) / 2, fay f i + (fay f 1 - fay f 0) / 2) /\
    (t = 0%nat <-> cell_index (ftheta f) i j = -1).
Proof. exact cp_sound_lemma. Qed.
Print Assumptions C51_sound.

Theorem C51_filter_partial :
  forall f i j, regular f -> (S i < rows f)%nat -> (S j < cols f)%nat -> cell_filter f i j = false -> cell_index (ftheta f) i j = 0.
Proof. exact filter_sound. Qed.
Print Assumptions C51_filter_partial.

Theorem C51_complete_partial :
  forall eig f, regular f ->
  exists l, NoDup l /\ (forall i j, In (i, j) l <-> (S i < rows f)%nat /\ (S j < cols f)%nat /\ cell_index (ftheta f) i j <> 0) /\
    map fst (cp_cells eig f) = map (fun p => (fax f (snd p) + (fax f 1 - fax f 0) / 2, fay f (fst p) + (fay f 1 - fay f 0) / 2)) l.
Proof. exact cp_complete_lemma. Qed.
Print Assumptions C51_complete_partial.

(** when two neighbours have opposite velocities, a cell of index 1 can be skipped *)
Theorem C51_refuted :
  (forall i j, fmask skipped i j = false) /\ (forall i j, (i < 2)%nat -> (j < 2)%nat -> fvx skipped i j <> 0 \/ fvy skipped i j <> 0) /\
  cell_index (ftheta skipped) 0 0 = 1 /\ forall eig, cp_cells eig skipped = [].
Proof. exact skipped_lemma. Qed.
Print Assumptions C51_refuted.

Example C51_example :
  let f := linear_vf 3 4 INR INR 0 (-1) 1 0 (3/2) (1/2) in
  regular f /\ cell_filter f 1 2 = false /\ cell_filter f 0 1 = true.
Proof.
  cbv zeta. split; [apply turning_regular|]. unfold cell_filter, cell_masked, crosses0, pos01. cbn [fvx fvy fmask linear_vf vf_of orb negb andb].
  assert (E2 : INR 2 = 2) by (cbn; ring). assert (E3 : INR 3 = 3) by (cbn; ring). rewrite ?E2, ?E3. cbn [INR].
  split.
  - destruct (Rlt_dec 0 (0 * (2 - 3/2) + -1 * (1 - 1/2))); [lra|]. destruct (Rlt_dec 0 (0 * (2 - 3/2) + -1 * (2 - 1/2))); [lra|].
    destruct (Rlt_dec 0 (0 * (3 - 3/2) + -1 * (1 - 1/2))); [lra|]. destruct (Rlt_dec 0 (0 * (3 - 3/2) + -1 * (2 - 1/2))); [lra|]. reflexivity.
  - repeat match goal with |- context [Rlt_dec ?a ?b] => destruct (Rlt_dec a b); try lra end; reflexivity.
Qed.

(** ** C94: the count of critical points *)
Theorem C94_count :
  forall eig f, regular f -> (0 < rows f)%nat -> (0 < cols f)%nat ->
  INR (count_type (fun t => negb (is_saddle t)) (cp_cells eig f)) - INR (count_type is_saddle (cp_cells eig f)) =
  nth (cols f - 1) (pbi_x (ftheta f) (rows f) (cols f)) 0.
Proof. exact cp_count_lemma. Qed.
Print Assumptions C94_count.

Example C94_example : forall eig,
  let f := linear_vf 3 4 INR INR 0 (-1) 1 0 (3/2) (1/2) in
  regular f /\ count_type (fun t => negb (is_saddle t)) (cp_cells eig f) = 1%nat /\ count_type is_saddle (cp_cells eig f) = 0%nat.
Proof.
  intros eig. cbv zeta. split; [apply turning_regular|].
  assert (IX : increasing 4 INR) by (intros i H; rewrite S_INR; lra).
  assert (IY : increasing 3 INR) by (intros i H; rewrite S_INR; lra).
  destruct (linear_located_lemma eig 3 4 INR INR 0 (-1) 1 0 (3/2) (1/2) 0 1 ltac:(lra) IX IY ltac:(lia) ltac:(lia) ltac:(cbn; lra) ltac:(cbn; lra)) as (t & E & T).
  rewrite E. unfold count_type, is_saddle. cbn [filter snd]. destruct (Nat.eqb t 0) eqn:N; [|split; reflexivity].
  apply Nat.eqb_eq, T in N. lra.
Qed.

(** ** C95: linear fields *)
Theorem C95_located_partial :
  forall eig m n ax ay a b c d cx cy i j, a * d - b * c <> 0 -> increasing n ax -> increasing m ay ->
  (S i < m)%nat -> (S j < n)%nat -> ax j < cx < ax (S j) -> ay i < cy < ay (S i) ->
  exists t, cp_cells eig (linear_vf m n ax ay a b c d cx cy) = [((ax j + (ax 1%nat - ax 0%nat) / 2, ay i + (ay 1%nat - ay 0%nat) / 2), t)] /\
    (t = 0%nat <-> a * d - b * c < 0).
Proof. exact linear_located_lemma. Qed.
Print Assumptions C95_located_partial.

Theorem C95_near_partial :
  forall eig m n ax ay a b c d cx cy i j dx dy, a * d - b * c <> 0 -> even_axis n ax dx -> even_axis m ay dy -> 0 < dx -> 0 < dy ->
  (S i < m)%nat -> (S j < n)%nat -> ax j < cx < ax (S j) -> ay i < cy < ay (S i) ->
  exists x y t, cp_cells eig (linear_vf m n ax ay a b c d cx cy) = [((x, y), t)] /\ Rabs (x - cx) < dx / 2 /\ Rabs (y - cy) < dy / 2 /\
    (t = 0%nat <-> a * d - b * c < 0).
Proof. exact linear_near_lemma. Qed.
Print Assumptions C95_near_partial.

Theorem C95_types_partial :
  forall eig m n ax ay a b c d cx cy i j h, eigen_ok eig -> 0 < a * d - b * c -> even_axis n ax h -> even_axis m ay h -> 0 < h ->
  (S i < m)%nat -> (S j < n)%nat -> ax j < cx < ax (S j) -> ay i < cy < ay (S i) ->
  exists pos t, cp_cells eig (linear_vf m n ax ay a b c d cx cy) = [(pos, t)] /\
    (t = 3%nat <-> (exists l, real_eigenvalue a b c d l) /\ forall l, real_eigenvalue a b c d l -> 0 < l) /\
    (t = 4%nat <-> (exists l, real_eigenvalue a b c d l) /\ forall l, real_eigenvalue a b c d l -> l < 0) /\
    (t = 1%nat <-> (forall l, ~ real_eigenvalue a b c d l) /\ c < 0) /\
    (t = 2%nat <-> (forall l, ~ real_eigenvalue a b c d l) /\ 0 < c).
Proof. exact linear_types_lemma. Qed.
Print Assumptions C95_types_partial.

(** the numbers of the foci follow the direction of rotation: a stable focus is given the number of the unstable ones *)
Theorem C95_focus_refuted :
  forall eig, eigen_ok eig ->
  exists pos, cp_cells eig (linear_vf 2 2 INR INR (-1) 1 (-1) (-1) (1/2) (1/2)) = [(pos, 1%nat)] /\ -1 + -1 < 0 /\ forall l, ~ real_eigenvalue (-1) 1 (-1) (-1) l.
Proof. exact focus_stable_lemma. Qed.
Print Assumptions C95_focus_refuted.

(** the steps of the grid are not used for the type: a focus is reported as a node *)
Theorem C95_stretched_refuted :
  forall eig, eigen_ok eig ->
  exists pos, cp_cells eig (linear_vf 2 2 INR (fun i => 3 * INR i) 1 (-1) 2 3 (1/2) (3/2)) = [(pos, 3%nat)] /\ forall l, ~ real_eigenvalue 1 (-1) 2 3 l.
Proof. exact stretched_lemma. Qed.
Print Assumptions C95_stretched_refuted.

(** the first step of the axes is used for every cell: the position is out of the field, whose abscissae go from 0 to 11 *)
Theorem C95_uneven_refuted :
  forall eig, exists y t, cp_cells eig (linear_vf 2 3 uneven INR 0 (-1) 1 0 (21/2) (1/2)) = [((15, y), t)].
Proof. exact uneven_lemma. Qed.
Print Assumptions C95_uneven_refuted.

(** an eigenvalue routine as the theorems suppose it *)
Example C95_eig : eigen_ok eig2.
Proof. exact eig2_ok. Qed.
Example C95_example :
  even_axis 4 INR 1 /\ even_axis 3 INR 1 /\ INR 1 < 3/2 < INR 2 /\ INR 0 < 1/2 < INR 1 /\ 0 < 1 * 3 - 1 * 0 /\
  real_eigenvalue 1 1 0 3 1 /\ real_eigenvalue 1 1 0 3 3.
Proof.
  split; [intros i H; rewrite S_INR; ring|]. split; [intros i H; rewrite S_INR; ring|]. unfold real_eigenvalue. cbn. lra.
Qed.
