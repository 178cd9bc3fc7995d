(** * PropCell: the positions of the critical points inside the cells of the grid (C191-C195).
    Statements, examples and counterexamples; the proofs are in CellProofs*.v.  The vocabulary is in PbiSpec and CellSpec:
    [interpolated f i j u v] is the bilinear interpolation of the velocity in the cell (i, j), at the fractions u of the columns and v of
    the rows; [null_at] says that it vanishes there; [critical] are the cells with a non-zero index. *)
From Coq Require Import Reals Lra List ZArith Lia Bool.
From Verif Require Import Res PbiModel PbiSpec CellModel CellSpec PbiProofs2 PbiProofs3 CellProofs2 CellProofs4 CellProofs5 CellProofs6.
Import ListNotations.
#[local] Open Scope R_scope.

(** ** C191: the cells found hold exactly one zero *)
Theorem C191_one_zero f i j :
  regular f -> critical f i j ->
  (exists u v, 0 < u < 1 /\ 0 < v < 1 /\ null_at f i j u v) /\ forall u1 v1 u2 v2, null_at f i j u1 v1 -> null_at f i j u2 v2 -> u1 = u2 /\ v1 = v2.
Proof. exact (critical_zero f i j). Qed.
Print Assumptions C191_one_zero.

Theorem C191_no_zero f i j :
  regular f -> a_cell f i j -> (forall u v, ~ null_at f i j u v) -> cell_index (ftheta f) i j = 0.
Proof. exact (quiet_cell f i j). Qed.
Print Assumptions C191_no_zero.

Theorem C191_detected eig f pos t :
  regular f -> In (pos, t) (cp_cells eig f) ->
  exists i j u v, a_cell f i j /\ pos = (fax f j + (fax f 1 - fax f 0) / 2, fay f i + (fay f 1 - fay f 0) / 2) /\ 0 < u < 1 /\ 0 < v < 1 /\ null_at f i j u v /\
    forall u' v', null_at f i j u' v' -> u' = u /\ v' = v.
Proof. exact (detected_zero eig f pos t). Qed.
Print Assumptions C191_detected.

Example C191_example : regular sample /\ critical sample 0 0 /\ null_at sample 0 0 (1/4) (1/2).
Proof. destruct sample_ok as (A & _ & B & _ & _ & C). auto. Qed.

(** ** C192: the position is that of the zero *)
Theorem C192_zeros eig f :
  regular f -> even_axes f -> (forall i j, critical f i j -> plain_corners f i j /\ bent f i j) ->
  exists cs l, NoDup cs /\ (forall i j, In (i, j) cs <-> critical f i j) /\ cp_positions eig f = Ok l /\ map snd l = map snd (cp_cells eig f) /\
    Forall2 (fun c p => exists u v, null_at f (fst c) (snd c) u v /\ fst p = place f (fst c) (snd c) u v) cs l.
Proof. exact (positions_zeros eig f). Qed.
Print Assumptions C192_zeros.

Theorem C192_no_failure eig f :
  regular f -> even_axes f -> exists l, cp_positions eig f = Ok l.
Proof. exact (positions_total eig f). Qed.
Print Assumptions C192_no_failure.

Example C192_example : regular sample /\ even_axes sample /\ (forall i j, critical sample i j -> plain_corners sample i j /\ bent sample i j) /\
  forall eig, exists t, cp_positions eig sample = Ok [((1/4, 1/2), t)].
Proof.
  destruct sample_ok as (A & B & _ & C & D & _). split; [exact A|]. split; [exact B|]. split; [|exact sample_positions].
  intros i j [X _]. pose proof (one_cell_only _ _ _ _ i j X) as Y. injection Y as -> ->. split; assumption.
Qed.

(** ** C193: no critical point is lost *)
Theorem C193_bent_partial eig f :
  regular f -> even_axes f -> (forall i j, critical f i j -> plain_corners f i j) ->
  exists cs l, NoDup cs /\ (forall i j, In (i, j) cs <-> critical f i j /\ bent f i j) /\ cp_positions eig f = Ok l /\
    Forall2 (fun c p => exists u v, null_at f (fst c) (snd c) u v /\ fst p = place f (fst c) (snd c) u v) cs l.
Proof. exact (positions_bent eig f). Qed.
Print Assumptions C193_bent_partial.

Theorem C193_linear_refuted eig m n ax ay a b c d cx cy i j :
  let f := linear_vf m n ax ay a b c d cx cy in
  a * d - b * c <> 0 -> even_axes f -> (S i < m)%nat -> (S j < n)%nat -> ax j < cx < ax (S j) -> ay i < cy < ay (S i) -> plain_corners f i j ->
  (exists pos t, cp_cells eig f = [(pos, t)]) /\ cp_positions eig f = Ok [].
Proof. exact (linear_lost eig m n ax ay a b c d cx cy i j). Qed.
Print Assumptions C193_linear_refuted.

Theorem C193_rotation_refuted eig :
  (exists pos t, cp_cells eig rotation = [(pos, t)]) /\ cp_positions eig rotation = Ok [].
Proof. exact (rotation_lost eig). Qed.
Print Assumptions C193_rotation_refuted.

Theorem C193_null_component_refuted eig :
  (exists pos t, cp_cells eig corner_null = [(pos, t)]) /\ critical corner_null 0 0 /\ regular corner_null /\ cp_positions eig corner_null = Ok [].
Proof. exact (corner_null_lost eig). Qed.
Print Assumptions C193_null_component_refuted.

Example C193_example : even_axes rotation /\ plain_corners rotation 0 0.
Proof. exact rotation_ok. Qed.

(** ** C194: the points stay in their cells and keep their types *)
Theorem C194_moved eig f l dx dy :
  0 < dx -> 0 < dy -> even_axis (cols f) (fax f) dx -> even_axis (rows f) (fay f) dy ->
  cp_positions eig f = Ok l -> moved (dx / 2) (dy / 2) (cp_cells eig f) l.
Proof. exact (positions_moved eig f l dx dy). Qed.
Print Assumptions C194_moved.

Example C194_example : exists l, cp_positions eig2 sample = Ok l /\ length l = 1%nat /\ even_axis (cols sample) (fax sample) 1 /\ even_axis (rows sample) (fay sample) 1.
Proof.
  destruct (sample_positions eig2) as (t & E). eexists. split; [exact E|]. split; [reflexivity|]. split; intros i I; cbn [sample one_cell vf_of fax fay]; rewrite S_INR; ring.
Qed.

(** ** C195: opposite components and uneven axes *)
Theorem C195_opposite_refuted eig :
  exists t, cp_positions eig opposite = Ok [((0, 1), t)] /\ fvx opposite 1 0 <> 0 /\ fvy opposite 1 0 <> 0 /\ interpolated opposite 0 0 (1/2) (1/4) = (0, 0).
Proof. exact (opposite_swapped eig). Qed.
Print Assumptions C195_opposite_refuted.

Theorem C195_uneven_refuted eig :
  cp_positions eig (linear_vf 2 3 uneven INR 0 (-1) 1 0 (21/2) (1/2)) = Err IndexErr.
Proof. exact (uneven_fails eig). Qed.
Print Assumptions C195_uneven_refuted.

