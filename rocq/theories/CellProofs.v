(** * CellProofs: a cell around which the velocity turns contains exactly one zero of the interpolated velocity. *)
From Coq Require Import Reals Lra Psatz List ZArith Lia Bool.
From Verif Require Import PbiModel PbiSpec PbiProofs PbiProofs2 CellModel CellSpec.
Import ListNotations.
#[local] Open Scope R_scope.

Notation wt u v := (W (TH u) (TH v)).
Definition lin (u v : R * R) (t : R) : R * R := ((1 - t) * fst u + t * fst v, (1 - t) * snd u + t * snd v).
Definition nonnull (u : R * R) : Prop := fst u <> 0 \/ snd u <> 0.
Definition loop (p q r s : R * R) : R := wt s p + wt p q + wt q r + wt r s.

(** ** angles along an edge *)
Lemma wt_sym u v : wt u v = - wt v u.
Proof. apply W_sym. Qed.
Lemma wt_sign : forall u v, clear_edge u v -> (0 < cross u v -> 0 < wt u v < PI) /\ (cross u v < 0 -> - PI < wt u v < 0) /\ (cross u v = 0 -> wt u v = 0).
Proof.
  intros u v C. destruct (W_clear u v C) as (B & CN & SN). destruct (clear_nonzero u v C) as [U V].
  pose proof (norm_pos u U). pose proof (norm_pos v V). assert (P : 0 < norm u * norm v) by (apply Rmult_lt_0_compat; assumption).
  set (a := wt u v) in *. assert (Z : a < 0 \/ a = 0 \/ 0 < a) by lra.
  assert (S1 : 0 < a -> 0 < cross u v). { intro A. rewrite <- SN. apply Rmult_lt_0_compat; [exact P|]. apply sin_gt_0; lra. }
  assert (S2 : a < 0 -> cross u v < 0).
  { intro A. rewrite <- SN. pose proof (sin_gt_0 (- a) ltac:(lra) ltac:(lra)) as K. rewrite sin_neg in K. nra. }
  assert (S3 : a = 0 -> cross u v = 0) by (intro A; rewrite <- SN, A, sin_0; ring).
  split; [|split]; intro Y; destruct Z as [Z|[Z|Z]]; try lra; try (specialize (S1 Z); lra); try (specialize (S2 Z); lra); try (specialize (S3 Z); lra).
Qed.
Lemma clear_sub : forall u v s t, clear_edge u v -> 0 <= s <= 1 -> 0 <= t <= 1 -> clear_edge (lin u v s) (lin u v t).
Proof.
  intros u v s t C S T k K. unfold lin; cbn [fst snd].
  assert (B : 0 <= (1 - k) * s + k * t <= 1) by (split; nra).
  destruct (C _ B) as [Z|Z]; [left|right]; intro E; apply Z; rewrite <- E; ring.
Qed.
Lemma wt_add : forall u v r s t, clear_edge u v -> 0 <= r -> r <= s -> s <= t -> t <= 1 -> wt (lin u v r) (lin u v s) + wt (lin u v s) (lin u v t) = wt (lin u v r) (lin u v t).
Proof.
  intros u v r s t C R1 R2 R3 R4.
  assert (X : forall a b, cross (lin u v a) (lin u v b) = (b - a) * cross u v) by (intros; unfold cross, lin; cbn [fst snd]; ring).
  pose proof (wt_sign _ _ (clear_sub u v r s C ltac:(lra) ltac:(lra))) as (A1 & A2 & A3).
  pose proof (wt_sign _ _ (clear_sub u v s t C ltac:(lra) ltac:(lra))) as (B1 & B2 & B3).
  pose proof (wt_sign _ _ (clear_sub u v r t C ltac:(lra) ltac:(lra))) as (D1 & D2 & D3).
  rewrite X in *. pose proof PI_RGT_0 as P.
  destruct (W_int (TH (lin u v r)) (TH (lin u v s))) as [z1 E1]. destruct (W_int (TH (lin u v s)) (TH (lin u v t))) as [z2 E2]. destruct (W_int (TH (lin u v r)) (TH (lin u v t))) as [z3 E3].
  apply (close_int _ _ (z1 + z2 - z3)); [|rewrite minus_IZR, plus_IZR, E1, E2, E3; ring].
  assert (K : forall a b, a <= b -> ((b - a) * cross u v = 0 \/ (0 < cross u v /\ 0 < (b - a) * cross u v) \/ (cross u v < 0 /\ (b - a) * cross u v < 0))).
  { intros a b L. destruct (Req_dec a b) as [-> |N]; [left; ring|]. destruct (Rtotal_order (cross u v) 0) as [N1|[N1|N1]]; [right; right; nra|left; rewrite N1; ring|right; left; nra]. }
  destruct (K r s R2) as [H1|[[H1' H1]|[H1' H1]]]; destruct (K s t R3) as [H2|[[H2' H2]|[H2' H2]]]; destruct (K r t ltac:(lra)) as [H3|[[H3' H3]|[H3' H3]]];
    try lra;
    repeat match goal with
    | H : _ = 0, A : _ = 0 -> _ |- _ => specialize (A H)
    | H : 0 < _, A : 0 < _ -> _ |- _ => specialize (A H)
    | H : _ < 0, A : _ < 0 -> _ |- _ => specialize (A H)
    end; lra.
Qed.

(** ** from local to global along an interval *)
Lemma cousin (P : R -> R -> Prop) a b : a <= b ->
  (forall x y z, a <= x -> x <= y -> y <= z -> z <= b -> P x y -> P y z -> P x z) ->
  (forall c, a <= c <= b -> exists d, 0 < d /\ forall x y, a <= x -> x <= c -> c <= y -> y <= b -> c - d < x -> y < c + d -> P x y) -> P a b.
Proof.
  intros L T Loc. set (E := fun t => a <= t <= b /\ P a t).
  assert (Ea : E a). { split; [lra|]. destruct (Loc a ltac:(lra)) as (d & D & H). apply H; lra. }
  destruct (completeness E) as [s [S1 S2]].
  - exists b. intros t [[_ A] _]. exact A.
  - exists a. exact Ea.
  - assert (As : a <= s) by (apply S1; exact Ea). assert (Sb : s <= b) by (apply S2; intros t [[_ A] _]; exact A).
    destruct (Loc s ltac:(lra)) as (d & D & H).
    assert (Q : exists t, E t /\ s - d < t).
    { destruct (Classical_Prop.classic (exists t, E t /\ s - d < t)) as [Y|N]; [exact Y|exfalso].
      assert (s <= s - d); [|lra]. apply S2. intros t Et. apply Rnot_lt_le. intro Lt. apply N. exists t. split; assumption. }
    destruct Q as (t & [[T1 T2] Pt] & T3). assert (T4 : t <= s) by (apply S1; split; [lra|exact Pt]).
    assert (Ps : P a s) by (apply (T a t s); try lra; [exact Pt|apply H; lra]).
    destruct (Req_dec s b) as [-> |N]; [exact Ps|exfalso].
    set (z := Rmin (s + d / 2) b). assert (Z : s < z /\ z <= b /\ z <= s + d / 2) by (unfold z, Rmin; destruct (Rle_dec (s + d / 2) b); lra).
    assert (z <= s); [|lra]. apply S1. split; [lra|]. apply (T a s z); try lra; [exact Ps|apply H; lra].
Qed.

(** ** a cell without zero *)
Section NoZero.
Variables p q r s : R * R.
Hypothesis NZ : forall u v, 0 <= u <= 1 -> 0 <= v <= 1 -> bilinear p q s r u v <> (0, 0).
Lemma nz_lin : forall u, 0 <= u <= 1 -> clear_edge (lin p q u) (lin s r u).
Proof.
  intros u U t T. specialize (NZ u t U T). unfold lin; cbn [fst snd].
  destruct (Req_dec ((1 - t) * ((1 - u) * fst p + u * fst q) + t * ((1 - u) * fst s + u * fst r)) 0) as [Z|Z]; [|left; exact Z]. right. intro Z'. apply NZ.
  unfold bilinear. f_equal; [etransitivity; [|exact Z]|etransitivity; [|exact Z']]; ring.
Qed.
Lemma nz_pq : clear_edge p q.
Proof.
  intros u U. specialize (NZ u 0 U ltac:(lra)). destruct (Req_dec ((1 - u) * fst p + u * fst q) 0) as [Z|Z]; [|left; exact Z]. right. intro Z'. apply NZ.
  unfold bilinear. f_equal; [etransitivity; [|exact Z]|etransitivity; [|exact Z']]; ring.
Qed.
Lemma nz_sr : clear_edge s r.
Proof.
  intros u U. specialize (NZ u 1 U ltac:(lra)). destruct (Req_dec ((1 - u) * fst s + u * fst r) 0) as [Z|Z]; [|left; exact Z]. right. intro Z'. apply NZ.
  unfold bilinear. f_equal; [etransitivity; [|exact Z]|etransitivity; [|exact Z']]; ring.
Qed.
Definition slab (x y : R) : R := loop (lin p q x) (lin p q y) (lin s r y) (lin s r x).
Lemma slab_add x y z : 0 <= x -> x <= y -> y <= z -> z <= 1 -> slab x z = slab x y + slab y z.
Proof.
  intros A B C D. unfold slab, loop.
  rewrite <- (wt_add p q x y z nz_pq A B C D). rewrite (wt_sym (lin s r z) (lin s r x)), (wt_sym (lin s r y) (lin s r x)), (wt_sym (lin s r z) (lin s r y)).
  rewrite <- (wt_add s r x y z nz_sr A B C D). rewrite (wt_sym (lin s r y) (lin p q y)). ring.
Qed.
(** two vectors that are not opposite are on one side of a line *)
Lemma one_side u v : clear_edge u v -> exists e, nonnull e /\ 0 < dot e u /\ 0 < dot e v.
Proof.
  intro C. destruct (clear_nonzero u v C) as [U V]. pose proof (norm_pos u U) as NU. pose proof (norm_pos v V) as NV.
  destruct (W_clear u v C) as (B & CN & _). pose proof (norm_sq u) as QU. pose proof (norm_sq v) as QV.
  assert (K : 0 < norm u * norm v + dot u v).
  { rewrite <- CN. assert (- 1 < cos (wt u v)) as Y; [|assert (0 < norm u * norm v) by (apply Rmult_lt_0_compat; assumption); set (k := norm u * norm v) in *; replace (k + k * cos (wt u v)) with (k * (1 + cos (wt u v))) by ring; apply Rmult_lt_0_compat; lra].
    destruct (COS_bound (wt u v)) as [C1 _]. destruct (Req_dec (cos (wt u v)) (-1)) as [E|E]; [exfalso|lra].
    assert (cos (PI - wt u v) = 1) as Y by (rewrite cos_minus, cos_PI, sin_PI, E; ring).
    assert (PI - wt u v = 0) as Y2; [|lra]. apply cos1_zero; [|exact Y]. pose proof PI_RGT_0. lra. }
  exists (norm v * fst u + norm u * fst v, norm v * snd u + norm u * snd v).
  assert (D1 : dot (norm v * fst u + norm u * fst v, norm v * snd u + norm u * snd v) u = norm u * (norm u * norm v + dot u v)).
  { unfold dot in *. cbn [fst snd]. transitivity (norm v * (fst u * fst u + snd u * snd u) + norm u * (fst u * fst v + snd u * snd v)); [ring|]. rewrite <- QU. ring. }
  assert (D2 : dot (norm v * fst u + norm u * fst v, norm v * snd u + norm u * snd v) v = norm v * (norm u * norm v + dot u v)).
  { unfold dot in *. cbn [fst snd]. transitivity (norm u * (fst v * fst v + snd v * snd v) + norm v * (fst u * fst v + snd u * snd v)); [ring|]. rewrite <- QV. ring. }
  rewrite D1, D2. assert (P1 : 0 < norm u * (norm u * norm v + dot u v)) by (apply Rmult_lt_0_compat; assumption).
  split; [|split; [exact P1|apply Rmult_lt_0_compat; assumption]].
  unfold nonnull. cbn [fst snd]. destruct (Req_dec (norm v * fst u + norm u * fst v) 0) as [Z|Z]; [|left; exact Z]. right. intro Z'. rewrite <- D1 in P1. unfold dot in P1. cbn [fst snd] in P1. rewrite Z, Z' in P1. lra.
Qed.
(** an affine function positive at a point is positive around it *)
Lemma affine_pos a b c : 0 < (1 - c) * a + c * b -> exists d, 0 < d /\ forall x, c - d < x < c + d -> 0 < (1 - x) * a + x * b.
Proof.
  intro H. set (g := (1 - c) * a + c * b) in *. pose proof (Rabs_pos (b - a)) as AB. exists (g / (1 + Rabs (b - a))).
  assert (D : 0 < g / (1 + Rabs (b - a))) by (apply Rdiv_lt_0_compat; lra). split; [exact D|].
  intros x X. assert (E : (1 - x) * a + x * b = g + (x - c) * (b - a)) by (unfold g; ring). rewrite E.
  assert (M : Rabs (x - c) < g / (1 + Rabs (b - a))) by (apply Rabs_def1; lra).
  assert (Y : Rabs ((x - c) * (b - a)) < g).
  { rewrite Rabs_mult. apply Rle_lt_trans with (Rabs (x - c) * (1 + Rabs (b - a))); [pose proof (Rabs_pos (x - c)); nra|].
    apply (Rmult_lt_compat_r (1 + Rabs (b - a))) in M; [|lra]. replace (g / (1 + Rabs (b - a)) * (1 + Rabs (b - a))) with g in M by (field; lra). exact M. }
  apply Rabs_def2 in Y. lra.
Qed.
Lemma half_loop e a b c d : nonnull e -> clear_edge a b -> clear_edge b c -> clear_edge c d -> clear_edge d a ->
  0 <= dot e a -> 0 <= dot e b -> 0 <= dot e c -> 0 <= dot e d -> loop a b c d = 0.
Proof.
  intros E C1 C2 C3 C4 A B C D. unfold loop. rewrite (half_edge e _ _ E C1), (half_edge e _ _ E C2), (half_edge e _ _ E C3), (half_edge e _ _ E C4) by assumption. ring.
Qed.
Lemma clear_sym u v : clear_edge u v -> clear_edge v u.
Proof. intros C t T. destruct (C (1 - t) ltac:(lra)) as [Z|Z]; [left|right]; intro E; apply Z; rewrite <- E; ring. Qed.
Lemma slab_local c : 0 <= c <= 1 -> exists d, 0 < d /\ forall x y, 0 <= x -> x <= c -> c <= y -> y <= 1 -> c - d < x -> y < c + d -> slab x y = 0.
Proof.
  intro C. destruct (one_side _ _ (nz_lin c C)) as (e & E & A & B).
  assert (DP : forall u v t, dot e (lin u v t) = (1 - t) * dot e u + t * dot e v) by (intros; unfold dot, lin; cbn [fst snd]; ring).
  rewrite DP in A, B. destruct (affine_pos _ _ _ A) as (d1 & D1 & A'). destruct (affine_pos _ _ _ B) as (d2 & D2 & B').
  exists (Rmin d1 d2). split; [apply Rmin_pos; assumption|]. intros x y X1 X2 Y1 Y2 X3 Y3.
  pose proof (Rmin_l d1 d2). pose proof (Rmin_r d1 d2).
  unfold slab. apply (half_loop e); [exact E|apply clear_sub; [apply nz_pq|lra|lra]|apply nz_lin; lra|apply clear_sub; [apply nz_sr|lra|lra]|apply clear_sym, nz_lin; lra| | | |];
    rewrite DP; apply Rlt_le; (apply A' || apply B'); lra.
Qed.
Lemma no_zero_loop : loop p q r s = 0.
Proof.
  assert (S : slab 0 1 = 0).
  { apply (cousin (fun x y => slab x y = 0) 0 1); [lra| |exact slab_local].
    intros x y z X Y Z Z1 H1 H2. rewrite (slab_add x y z) by assumption. rewrite H1, H2. ring. }
  unfold slab in S. replace p with (lin p q 0) at 1 by (destruct p; unfold lin; cbn; f_equal; ring).
  replace q with (lin p q 1) at 2 by (destruct q; unfold lin; cbn; f_equal; ring).
  replace r with (lin s r 1) at 1 by (destruct r; unfold lin; cbn; f_equal; ring).
  replace s with (lin s r 0) at 2 by (destruct s; unfold lin; cbn; f_equal; ring). exact S.
Qed.
End NoZero.
