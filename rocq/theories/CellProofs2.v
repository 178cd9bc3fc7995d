(** * CellProofs2: the zero of the interpolated velocity in a critical cell. *)
From Coq Require Import Reals Lra Psatz List ZArith Lia Bool.
From Verif Require Import PbiModel PbiSpec PbiProofs PbiProofs2 CellModel CellSpec CellProofs.
Import ListNotations.
#[local] Open Scope R_scope.

Definition four_clear (p q r s : R * R) : Prop := clear_edge p q /\ clear_edge q r /\ clear_edge r s /\ clear_edge s p.
Lemma loop_small p q r s : - (2 * PI) < loop p q r s < 2 * PI -> loop p q r s = 0.
Proof.
  intro B. unfold loop in *. destruct (W_int (TH s) (TH p)) as [z1 E1]. destruct (W_int (TH p) (TH q)) as [z2 E2]. destruct (W_int (TH q) (TH r)) as [z3 E3]. destruct (W_int (TH r) (TH s)) as [z4 E4].
  apply (close_int _ _ (z1 + z2 + z3 + z4)); [lra|]. rewrite !plus_IZR, E1, E2, E3, E4. ring.
Qed.
(** two turns in a direction and two in the other *)
Lemma loop_balanced p q r s X a b c d : four_clear p q r s ->
  (0 < a /\ 0 < d /\ b < 0 /\ c < 0) \/ (0 < a /\ 0 < b /\ c < 0 /\ d < 0) ->
  cross p q = a * X -> cross q r = b * X -> cross r s = c * X -> cross s p = d * X -> loop p q r s = 0.
Proof.
  intros (C1 & C2 & C3 & C4) S E1 E2 E3 E4.
  pose proof (wt_sign _ _ C1) as W1. pose proof (wt_sign _ _ C2) as W2. pose proof (wt_sign _ _ C3) as W3. pose proof (wt_sign _ _ C4) as W4.
  rewrite E1 in W1. rewrite E2 in W2. rewrite E3 in W3. rewrite E4 in W4. apply loop_small. unfold loop. pose proof PI_RGT_0.
  assert (PP : forall k, 0 < k -> 0 < X -> 0 < k * X) by (intros; apply Rmult_lt_0_compat; assumption).
  assert (PN : forall k, 0 < k -> X < 0 -> k * X < 0) by (intros; nra).
  assert (NP : forall k, k < 0 -> 0 < X -> k * X < 0) by (intros; nra).
  assert (NN : forall k, k < 0 -> X < 0 -> 0 < k * X) by (intros; nra).
  destruct (Rtotal_order X 0) as [N|[Z|Q]].
  - destruct S as [(A & D & B & C)|(A & B & C & D)];
    [destruct W1 as (_ & W1 & _); destruct W4 as (_ & W4 & _); destruct W2 as (W2 & _ & _); destruct W3 as (W3 & _ & _)
    |destruct W1 as (_ & W1 & _); destruct W2 as (_ & W2 & _); destruct W3 as (W3 & _ & _); destruct W4 as (W4 & _ & _)];
    specialize (W1 ltac:(auto)); specialize (W2 ltac:(auto)); specialize (W3 ltac:(auto)); specialize (W4 ltac:(auto)); lra.
  - destruct W1 as (_ & _ & W1); destruct W2 as (_ & _ & W2); destruct W3 as (_ & _ & W3); destruct W4 as (_ & _ & W4).
    rewrite W1, W2, W3, W4 by (rewrite Z; ring). lra.
  - destruct S as [(A & D & B & C)|(A & B & C & D)];
    [destruct W1 as (W1 & _ & _); destruct W4 as (W4 & _ & _); destruct W2 as (_ & W2 & _); destruct W3 as (_ & W3 & _)
    |destruct W1 as (W1 & _ & _); destruct W2 as (W2 & _ & _); destruct W3 as (_ & W3 & _); destruct W4 as (_ & W4 & _)];
    specialize (W1 ltac:(auto)); specialize (W2 ltac:(auto)); specialize (W3 ltac:(auto)); specialize (W4 ltac:(auto)); lra.
Qed.
(** a bilinear function from its values at the corners of another rectangle *)
Definition bil (p q s r u v : R) : R := (1 - u) * (1 - v) * p + u * (1 - v) * q + (1 - u) * v * s + u * v * r.
Lemma bil_re p q s r u1 u2 v1 v2 u v : u1 <> u2 -> v1 <> v2 ->
  let x := (u - u1) / (u2 - u1) in let y := (v - v1) / (v2 - v1) in
  bil p q s r u v = (1 - x) * (1 - y) * bil p q s r u1 v1 + x * (1 - y) * bil p q s r u2 v1 + (1 - x) * y * bil p q s r u1 v2 + x * y * bil p q s r u2 v2.
Proof. intros A B. cbv zeta. unfold bil. field. split; lra. Qed.
Lemma bilinear_bil p q s r u v : bilinear p q s r u v = (bil (fst p) (fst q) (fst s) (fst r) u v, bil (snd p) (snd q) (snd s) (snd r) u v).
Proof. reflexivity. Qed.
Section TwoZeros.
Variables p q r s : R * R.
Hypothesis C : four_clear p q r s.
Notation V := (bilinear p q s r).
Lemma zero_inner u v : 0 <= u <= 1 -> 0 <= v <= 1 -> V u v = (0, 0) -> 0 < u < 1 /\ 0 < v < 1.
Proof.
  intros U Y Z. destruct C as (C1 & C2 & C3 & C4). unfold bilinear in Z. injection Z as Z1 Z2.
  assert (u <> 0) by (intros ->; destruct (C4 (1 - v) ltac:(lra)) as [K|K]; apply K; lra).
  assert (u <> 1) by (intros ->; destruct (C2 v ltac:(lra)) as [K|K]; apply K; lra).
  assert (v <> 0) by (intros ->; destruct (C1 u ltac:(lra)) as [K|K]; apply K; lra).
  assert (v <> 1) by (intros ->; destruct (C3 (1 - u) ltac:(lra)) as [K|K]; apply K; lra). lra.
Qed.
Lemma lin_comb a b x y z : a = 0 -> b = 0 -> z = x * a - y * b -> z = 0.
Proof. intros -> -> ->. ring. Qed.
Lemma zeros_apart u1 v1 u2 v2 : 0 <= u1 <= 1 -> 0 <= v1 <= 1 -> 0 <= u2 <= 1 -> 0 <= v2 <= 1 -> V u1 v1 = (0, 0) -> V u2 v2 = (0, 0) -> (u1 <> u2 \/ v1 <> v2) -> u1 <> u2 /\ v1 <> v2.
Proof.
  intros U1 Y1 U2 Y2 Z1 Z2 N. destruct C as (C1 & C2 & C3 & C4). unfold bilinear in *. injection Z1 as A1 A2. injection Z2 as B1 B2. split.
  - intro E. subst u2. assert (D : v1 <> v2) by tauto. destruct (C1 u1 U1) as [K|K]; apply K.
    + apply (Rmult_eq_reg_l (v2 - v1)); [|lra]. rewrite Rmult_0_r. apply (lin_comb _ _ v2 v1 _ A1 B1). ring.
    + apply (Rmult_eq_reg_l (v2 - v1)); [|lra]. rewrite Rmult_0_r. apply (lin_comb _ _ v2 v1 _ A2 B2). ring.
  - intro E. subst v2. assert (D : u1 <> u2) by tauto. destruct (C4 (1 - v1) ltac:(lra)) as [K|K]; apply K.
    + apply (Rmult_eq_reg_l (u2 - u1)); [|lra]. rewrite Rmult_0_r. apply (lin_comb _ _ u2 u1 _ A1 B1). ring.
    + apply (Rmult_eq_reg_l (u2 - u1)); [|lra]. rewrite Rmult_0_r. apply (lin_comb _ _ u2 u1 _ A2 B2). ring.
Qed.
Lemma quot_neg a b : 0 < b -> 0 < a -> (0 - a) / b < 0.
Proof. intros B A. unfold Rdiv. pose proof (Rinv_0_lt_compat b B). nra. Qed.
Lemma quot_big a b : 0 < b -> b < a -> 1 < a / b.
Proof. intros B A. apply (Rmult_lt_reg_r b); [exact B|]. unfold Rdiv. rewrite Rmult_assoc, Rinv_l by lra. lra. Qed.
Lemma nn a b : a < 0 -> b < 0 -> 0 < a * b.
Proof. intros. nra. Qed.
Lemma np a b : a < 0 -> 0 < b -> a * b < 0.
Proof. intros. nra. Qed.
Lemma low a : a < 0 -> a * (1 - a) < 0.
Proof. intros. nra. Qed.
Lemma high a : 1 < a -> a * (1 - a) < 0.
Proof. intros. nra. Qed.
Lemma two_zeros_ordered u1 v1 u2 v2 : 0 < u1 < 1 -> 0 < v1 < 1 -> 0 < u2 < 1 -> 0 < v2 < 1 -> V u1 v1 = (0, 0) -> V u2 v2 = (0, 0) -> u1 < u2 -> v1 <> v2 -> loop p q r s = 0.
Proof.
  intros U1 Y1 U2 Y2 Z1 Z2 L N.
  assert (P0 : p = V 0 0) by (destruct p; unfold bilinear; cbn; f_equal; ring). assert (Q0 : q = V 1 0) by (destruct q; unfold bilinear; cbn; f_equal; ring).
  assert (R0 : r = V 1 1) by (destruct r; unfold bilinear; cbn; f_equal; ring). assert (S0 : s = V 0 1) by (destruct s; unfold bilinear; cbn; f_equal; ring).
  rewrite bilinear_bil in Z1, Z2. injection Z1 as A1 A2. injection Z2 as B1 B2.
  set (al := V u2 v1). set (be := V u1 v2).
  set (x0 := (0 - u1) / (u2 - u1)). set (x1 := (1 - u1) / (u2 - u1)).
  assert (X0 : x0 < 0) by (apply quot_neg; lra). assert (X1 : 1 < x1) by (apply quot_big; lra).
  destruct (Rlt_dec v1 v2) as [O|O].
  - set (y0 := (0 - v1) / (v2 - v1)). set (y1 := (1 - v1) / (v2 - v1)).
    assert (T0 : y0 < 0) by (apply quot_neg; lra). assert (T1 : 1 < y1) by (apply quot_big; lra).
    assert (E : forall u v, V u v = ((u - u1) / (u2 - u1) * (1 - (v - v1) / (v2 - v1)) * fst al + (1 - (u - u1) / (u2 - u1)) * ((v - v1) / (v2 - v1)) * fst be,
      (u - u1) / (u2 - u1) * (1 - (v - v1) / (v2 - v1)) * snd al + (1 - (u - u1) / (u2 - u1)) * ((v - v1) / (v2 - v1)) * snd be)).
    { intros u v. rewrite bilinear_bil. rewrite !(bil_re _ _ _ _ u1 u2 v1 v2 u v) by lra. rewrite A1, A2, B1, B2. unfold al, be. rewrite !bilinear_bil. cbn [fst snd]. f_equal; ring. }
    rewrite E in P0, Q0, R0, S0. fold x0 y0 in P0. fold x1 y0 in Q0. fold x1 y1 in R0. fold x0 y1 in S0.
    apply (loop_balanced p q r s (cross al be) (y0 * (1 - y0) * (x0 - x1)) (x1 * (1 - x1) * (y1 - y0)) (y1 * (1 - y1) * (x1 - x0)) (x0 * (1 - x0) * (y0 - y1)) C).
    + left. repeat split; [apply nn; [apply low|]|apply nn; [apply low|]|apply np; [apply high|]|apply np; [apply high|]]; lra.
    + rewrite P0, Q0. unfold cross. cbn [fst snd]. ring.
    + rewrite Q0, R0. unfold cross. cbn [fst snd]. ring.
    + rewrite R0, S0. unfold cross. cbn [fst snd]. ring.
    + rewrite S0, P0. unfold cross. cbn [fst snd]. ring.
  - set (y0 := (0 - v2) / (v1 - v2)). set (y1 := (1 - v2) / (v1 - v2)).
    assert (T0 : y0 < 0) by (apply quot_neg; lra). assert (T1 : 1 < y1) by (apply quot_big; lra).
    assert (E : forall u v, V u v = ((u - u1) / (u2 - u1) * ((v - v2) / (v1 - v2)) * fst al + (1 - (u - u1) / (u2 - u1)) * (1 - (v - v2) / (v1 - v2)) * fst be,
      (u - u1) / (u2 - u1) * ((v - v2) / (v1 - v2)) * snd al + (1 - (u - u1) / (u2 - u1)) * (1 - (v - v2) / (v1 - v2)) * snd be)).
    { intros u v. rewrite bilinear_bil. rewrite !(bil_re _ _ _ _ u1 u2 v2 v1 u v) by lra. rewrite A1, A2, B1, B2. unfold al, be. rewrite !bilinear_bil. cbn [fst snd]. f_equal; ring. }
    rewrite E in P0, Q0, R0, S0. fold x0 y0 in P0. fold x1 y0 in Q0. fold x1 y1 in R0. fold x0 y1 in S0.
    apply (loop_balanced p q r s (cross al be) (y0 * (1 - y0) * (x0 - x1)) (x1 * (1 - x1) * (y0 - y1)) (y1 * (1 - y1) * (x1 - x0)) (x0 * (1 - x0) * (y1 - y0)) C).
    + right. repeat split; [apply nn; [apply low|]|apply nn; [apply high|]|apply np; [apply high|]|apply np; [apply low|]]; lra.
    + rewrite P0, Q0. unfold cross. cbn [fst snd]. ring.
    + rewrite Q0, R0. unfold cross. cbn [fst snd]. ring.
    + rewrite R0, S0. unfold cross. cbn [fst snd]. ring.
    + rewrite S0, P0. unfold cross. cbn [fst snd]. ring.
Qed.
Lemma one_zero : loop p q r s <> 0 ->
  (exists u v, 0 < u < 1 /\ 0 < v < 1 /\ V u v = (0, 0)) /\
  forall u1 v1 u2 v2, 0 <= u1 <= 1 -> 0 <= v1 <= 1 -> 0 <= u2 <= 1 -> 0 <= v2 <= 1 -> V u1 v1 = (0, 0) -> V u2 v2 = (0, 0) -> u1 = u2 /\ v1 = v2.
Proof.
  intro L. split.
  - destruct (Classical_Prop.classic (exists u v, 0 <= u <= 1 /\ 0 <= v <= 1 /\ V u v = (0, 0))) as [(u & v & U & Y & Z)|N].
    + exists u, v. destruct (zero_inner u v U Y Z). auto.
    + exfalso. apply L. apply no_zero_loop. intros u v U Y Z. apply N. exists u, v. auto.
  - intros u1 v1 u2 v2 U1 Y1 U2 Y2 Z1 Z2.
    destruct (Req_dec u1 u2) as [E|N]; [destruct (Req_dec v1 v2) as [E'|N']; [auto|]|]; exfalso.
    + destruct (zeros_apart u1 v1 u2 v2 U1 Y1 U2 Y2 Z1 Z2 (or_intror N')). contradiction.
    + destruct (zeros_apart u1 v1 u2 v2 U1 Y1 U2 Y2 Z1 Z2 (or_introl N)) as [_ M].
      destruct (zero_inner _ _ U1 Y1 Z1). destruct (zero_inner _ _ U2 Y2 Z2). apply L. destruct (Rtotal_order u1 u2) as [O|[O|O]]; [|contradiction|].
      * apply (two_zeros_ordered u1 v1 u2 v2); auto.
      * apply (two_zeros_ordered u2 v2 u1 v1); auto.
Qed.
End TwoZeros.

(** a critical cell has exactly one zero *)
Lemma cell_loop f i j : regular f -> a_cell f i j -> four_clear (vel f (i, j)) (vel f (i, S j)) (vel f (S i, S j)) (vel f (S i, j)) /\
  cell_index (ftheta f) i j = loop (vel f (i, j)) (vel f (i, S j)) (vel f (S i, S j)) (vel f (S i, j)) / (2 * PI).
Proof.
  intros R [I J]. destruct (vel_cell_clear f i j R I J) as (C1 & C2 & C3 & C4). split; [repeat split; assumption|].
  rewrite cell_index_W. f_equal. unfold cellW, loop. destruct R as [R _].
  rewrite (proj2 (R i j ltac:(lia) ltac:(lia))), (proj2 (R (S i) j ltac:(lia) ltac:(lia))), (proj2 (R i (S j) ltac:(lia) ltac:(lia))), (proj2 (R (S i) (S j) ltac:(lia) ltac:(lia))). reflexivity.
Qed.
Lemma critical_zero f i j : regular f -> critical f i j ->
  (exists u v, 0 < u < 1 /\ 0 < v < 1 /\ null_at f i j u v) /\ forall u1 v1 u2 v2, null_at f i j u1 v1 -> null_at f i j u2 v2 -> u1 = u2 /\ v1 = v2.
Proof.
  intros R [A N]. destruct (cell_loop f i j R A) as [C E].
  assert (L : loop (vel f (i, j)) (vel f (i, S j)) (vel f (S i, S j)) (vel f (S i, j)) <> 0) by (intro Z; apply N; rewrite E, Z; unfold Rdiv; ring).
  destruct (one_zero _ _ _ _ C L) as [(u & v & U & V & Z) Q]. split.
  - exists u, v. split; [exact U|split; [exact V|split; [lra|split; [lra|exact Z]]]].
  - intros u1 v1 u2 v2 (U1 & V1 & Z1) (U2 & V2 & Z2). apply Q; assumption.
Qed.
(** a cell whose velocity is never null is not critical *)
Lemma quiet_cell f i j : regular f -> a_cell f i j -> (forall u v, ~ null_at f i j u v) -> cell_index (ftheta f) i j = 0.
Proof.
  intros R A N. destruct (cell_loop f i j R A) as [C E]. rewrite E, no_zero_loop; [unfold Rdiv; ring|].
  intros u v U V Z. apply (N u v). split; [exact U|split; [exact V|exact Z]].
Qed.
