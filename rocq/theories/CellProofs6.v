(** * CellProofs6: concrete fields. *)
From Coq Require Import Reals Lra Psatz List ZArith Lia Bool.
From Verif Require Import Res PbiModel PbiSpec PbiProofs PbiProofs2 PbiProofs3 CellModel CellSpec CellProofs CellProofs2 CellProofs3 CellProofs4 CellProofs5.
Import ListNotations.
#[local] Open Scope R_scope.

Ltac corn := repeat split; cbn [fst snd fvx fvy vf_of linear_vf Nat.add INR]; let H := fresh in intro H; cbn in H; lra.
(** one cell with given velocities at its corners: p, q on the first row and s, r on the second one *)
Definition one_cell (p q s r : R * R) : vf :=
  vf_of 2 2 (fun j i => fst (match i, j with O, O => p | O, _ => q | _, O => s | _, _ => r end)) (fun j i => snd (match i, j with O, O => p | O, _ => q | _, O => s | _, _ => r end))
    (fun _ _ => false) INR INR.
Lemma clear_cross u v : cross u v <> 0 -> clear_edge u v.
Proof.
  intros C t T. destruct (Req_dec ((1 - t) * fst u + t * fst v) 0) as [A|A]; [|left; exact A]. right. intro B. apply C.
  unfold cross in *. destruct u as [a b], v as [c d]. cbn [fst snd] in *.
  assert (X : (1 - t) * (a * d - b * c) = 0) by (transitivity (d * ((1 - t) * a + t * c) - c * ((1 - t) * b + t * d)); [ring|rewrite A, B; ring]).
  assert (Y : t * (a * d - b * c) = 0) by (transitivity (a * ((1 - t) * b + t * d) - b * ((1 - t) * a + t * c)); [ring|rewrite A, B; ring]). lra.
Qed.
Lemma one_cell_regular p q s r : cross p q <> 0 -> cross q r <> 0 -> cross r s <> 0 -> cross s p <> 0 -> regular (one_cell p q s r).
Proof.
  assert (SY : forall u v, cross u v <> 0 -> cross v u <> 0) by (intros u v N E; apply N; unfold cross in *; lra).
  intros A B C D. split; [intros i j _ _; split; reflexivity|].
  intros [i j] [k l] [I1 J1] [I2 J2] N. cbn [fst snd rows cols one_cell vf_of] in *. unfold neighbours in N. cbn [fst snd] in N.
  assert (X : (i = 0 \/ i = 1)%nat /\ (j = 0 \/ j = 1)%nat /\ (k = 0 \/ k = 1)%nat /\ (l = 0 \/ l = 1)%nat) by lia.
  destruct X as ([-> | ->] & [-> | ->] & [-> | ->] & [-> | ->]); try lia; unfold vel; cbn [fst snd fvx fvy one_cell vf_of]; rewrite <- !surjective_pairing; apply clear_cross; auto.
Qed.
Lemma one_cell_critical p q s r : 0 < cross p q -> 0 < cross q r -> 0 < cross r s -> 0 < cross s p -> critical (one_cell p q s r) 0 0.
Proof.
  intros A B C D. assert (R : regular (one_cell p q s r)) by (apply one_cell_regular; lra). split; [split; cbn; lia|].
  pose proof (vel_cell_clear (one_cell p q s r) 0 0 R ltac:(cbn; lia) ltac:(cbn; lia)) as CC. pose proof (regular_theta (one_cell p q s r) R 0%nat 0%nat ltac:(cbn; lia) ltac:(cbn; lia)) as T.
  rewrite (turn_cell 1 (fun a b => vel (one_cell p q s r) (a, b)) (ftheta (one_cell p q s r)) 0 0 (or_introl eq_refl) CC T); [lra|..];
    unfold vel; cbn [fst snd fvx fvy one_cell vf_of]; rewrite <- !surjective_pairing, Rmult_1_l; assumption.
Qed.
Lemma one_cell_even p q s r : even_axes (one_cell p q s r).
Proof. exists 1, 1. repeat split; try lra; intros i I; cbn [one_cell vf_of fax fay]; rewrite S_INR; ring. Qed.
Lemma one_cell_only p q s r i j : a_cell (one_cell p q s r) i j -> (i, j) = (0, 0)%nat.
Proof. intros [I J]. cbn in I, J. f_equal; lia. Qed.
(** a cell in general position, with the zero at a quarter of the columns and half of the rows *)
Definition sample : vf := one_cell (2, -1) (4, 3) (-3, -2) (-1, 6).
Lemma sample_ok : regular sample /\ even_axes sample /\ critical sample 0 0 /\ plain_corners sample 0 0 /\ bent sample 0 0 /\ null_at sample 0 0 (1/4) (1/2).
Proof.
  split; [apply one_cell_regular; unfold cross; cbn [fst snd]; lra|]. split; [apply one_cell_even|]. split; [apply one_cell_critical; unfold cross; cbn [fst snd]; lra|].
  split.
  - intros a b A B. destruct a as [|[|a]]; [| |lia]; (destruct b as [|[|b]]; [| |lia]); corn.
  - split.
    + unfold bent, cross, g_x, g_y, g_xy, minus, vel. corn.
    + split; [lra|split; [lra|]]. unfold interpolated, bilinear, vel. cbn [fst snd fvx fvy sample one_cell vf_of]. f_equal; lra.
Qed.
Lemma sample_positions eig : exists t, cp_positions eig sample = Ok [((1/4, 1/2), t)].
Proof.
  destruct sample_ok as (R & EA & CR & PC & B & N).
  destruct (positions_zeros eig sample R EA) as (cs & l & ND & M & E & _ & F).
  { intros i j [C _]. pose proof (one_cell_only _ _ _ _ i j C) as X. injection X as -> ->. split; assumption. }
  assert (X : cs = [(0, 0)%nat]).
  { destruct cs as [|[i j] cs]; [destruct (proj2 (M 0 0)%nat CR)|]. assert (Y : (i, j) = (0, 0)%nat) by (apply (one_cell_only (2, -1) (4, 3) (-3, -2) (-1, 6)), (M i j); left; reflexivity).
    rewrite Y in *. destruct cs as [|[k m] cs]; [reflexivity|]. exfalso. assert (Y' : (k, m) = (0, 0)%nat) by (apply (one_cell_only (2, -1) (4, 3) (-3, -2) (-1, 6)), (M k m); right; left; reflexivity).
    rewrite Y' in ND. inversion ND as [|? ? X _]. apply X. left. reflexivity. }
  subst cs. inversion F as [|? [pos t] ? ? (u & v & N' & Q) F']. subst. inversion F'. subst. cbn [fst snd] in *. exists t. rewrite E, Q. do 3 f_equal.
  destruct (critical_zero sample 0 0 R CR) as [_ UN]. destruct (UN _ _ _ _ N' N) as [-> ->]. unfold place. cbn [fax fay sample one_cell vf_of INR]. f_equal; lra.
Qed.
(** a rotation *)
Definition rotation : vf := linear_vf 2 2 INR INR 0 (-1) 1 0 (1/4) (3/8).
Lemma rotation_ok : even_axes rotation /\ plain_corners rotation 0 0.
Proof.
  split; [exists 1, 1; repeat split; try lra; intros i I; cbn [rotation linear_vf vf_of fax fay]; rewrite S_INR; ring|].
  intros a b A B. destruct a as [|[|a]]; [| |lia]; (destruct b as [|[|b]]; [| |lia]); corn.
Qed.
Lemma rotation_lost eig : (exists pos t, cp_cells eig rotation = [(pos, t)]) /\ cp_positions eig rotation = Ok [].
Proof.
  destruct rotation_ok as [EA PC]. apply (linear_lost eig 2 2 INR INR 0 (-1) 1 0 (1/4) (3/8) 0 0); try assumption; try lia; cbn; lra.
Qed.
(** a null component at a corner *)
Lemma in_cell_null f i j a b : even_axes f -> a_cell f i j -> (forall a b, (a < 2)%nat -> (b < 2)%nat -> fmask f (i + a) (j + b) = false) ->
  (forall a b, (a < 2)%nat -> (b < 2)%nat -> fvx f (i + a) (j + b) + fvy f (i + a) (j + b) <> 0) ->
  (a < 2)%nat -> (b < 2)%nat -> fvx f (i + a) (j + b) = 0 \/ fvy f (i + a) (j + b) = 0 -> in_cell f (centre_of f i j) = Ok None.
Proof.
  intros (dx & dy & DX & DY & EX & EY) [I J] M S A B Z. unfold in_cell, centre_of. cbn [fst snd]. rewrite !(EX 0%nat), !(EY 0%nat) by lia.
  rewrite (first_above_even (cols f) (fax f) dx j DX EX J), (first_above_even (rows f) (fay f) dy i DY EY I). cbn [pred].
  unfold any_corner at 1. rewrite !M by lia. cbn [orb].
  unfold null_sum. cbn [filter fst snd fvx fvy cell_of]. destruct (corners4 _ S) as (S1 & S2 & S3 & S4).
  repeat match goal with |- context [Req_EM_T ?a 0] => destruct (Req_EM_T a 0); [contradiction|] end.
  assert (O : (any_corner (fun a b => is_zero (fvx f (i + a) (j + b))) || any_corner (fun a b => is_zero (fvy f (i + a) (j + b))) = true)%bool).
  { unfold any_corner, is_zero. destruct a as [|[|a]]; [| |lia]; (destruct b as [|[|b]]; [| |lia]); destruct Z as [Z|Z]; rewrite Z; destruct (Req_EM_T 0 0); try lra; cbn [orb]; rewrite ?orb_true_r; cbn [orb]; rewrite ?orb_true_r; reflexivity. }
  rewrite O. reflexivity.
Qed.
Definition corner_null : vf := one_cell (2, -1) (4, 3) (-3, -2) (0, 6).
Lemma corner_null_lost eig : (exists pos t, cp_cells eig corner_null = [(pos, t)]) /\ critical corner_null 0 0 /\ regular corner_null /\ cp_positions eig corner_null = Ok [].
Proof.
  assert (R : regular corner_null) by (apply one_cell_regular; unfold cross; cbn [fst snd]; lra).
  assert (CR : critical corner_null 0 0) by (apply one_cell_critical; unfold cross; cbn [fst snd]; lra).
  assert (L : cp_cells eig corner_null = [(centre_of corner_null 0 0, cp_type eig (cell_of corner_null 0 0))]).
  { rewrite (cp_cells_regular eig corner_null R). rewrite (filter_single _ _ _ (0, 0)%nat); [reflexivity|apply cells_nodup|apply cells_in; cbn; lia|].
    intros [i j] X. apply cells_in in X. cbn in X. split; [intros _; f_equal; lia|]. intro Y. injection Y as -> ->. cbn [fst snd]. destruct CR as [_ CI]. unfold nzb.
    destruct (Req_EM_T (cell_index (ftheta corner_null) 0 0) 0); [contradiction|reflexivity]. }
  split; [do 2 eexists; exact L|]. split; [exact CR|]. split; [exact R|]. unfold cp_positions. rewrite L. cbn [cp_moved].
  rewrite (in_cell_null corner_null 0 0 1 1); [reflexivity|apply one_cell_even|split; cbn; lia|reflexivity| |lia|lia|left; reflexivity].
  intros a b A B. destruct a as [|[|a]]; [| |lia]; (destruct b as [|[|b]]; [| |lia]); corn.
Qed.
(** a corner whose components are opposite *)
Definition opposite : vf := linear_vf 2 2 INR INR 0 2 1 0 (1/2) (1/4).
Lemma opposite_swapped eig : exists t, cp_positions eig opposite = Ok [((0, 1), t)] /\ fvx opposite 1 0 <> 0 /\ fvy opposite 1 0 <> 0 /\ interpolated opposite 0 0 (1/2) (1/4) = (0, 0).
Proof.
  assert (EA : even_axes opposite) by (exists 1, 1; repeat split; try lra; intros i I; cbn [opposite linear_vf vf_of fax fay]; rewrite S_INR; ring).
  pose proof EA as (dx & dy & DX & DY & EX & EY).
  pose proof (linear_list eig 2 2 INR INR 0 2 1 0 (1/2) (1/4) 0 0 ltac:(lra) (even_increasing _ _ _ DX EX) (even_increasing _ _ _ DY EY) ltac:(lia) ltac:(lia) ltac:(cbn; lra) ltac:(cbn; lra)) as L.
  cbv zeta in L. fold opposite in L. exists (cp_type eig (cell_of opposite 0 0)). split; [|split; [corn|split; [corn|unfold interpolated, bilinear, vel; cbn [fst snd fvx fvy opposite linear_vf vf_of INR]; f_equal; lra]]].
  unfold cp_positions. rewrite L. cbn [cp_moved]. unfold in_cell. cbn [fst snd fax fay cols rows opposite linear_vf vf_of INR first_above].
  destruct (Rlt_dec (0 + (1 - 0) / 2) 0); [lra|]. destruct (Rlt_dec (0 + (1 - 0) / 2) 1); [|lra]. cbn [pred any_corner fmask orb].
  unfold null_sum. cbn [filter fst snd fvx fvy cell_of Nat.add INR].
  repeat match goal with |- context [Req_EM_T ?a 0] => let X := fresh in destruct (Req_EM_T a 0) as [X|X]; cbn in X; try (exfalso; lra) end. reflexivity.
Qed.
Lemma uneven_fails eig : cp_positions eig (linear_vf 2 3 uneven INR 0 (-1) 1 0 (21/2) (1/2)) = Err IndexErr.
Proof.
  destruct (uneven_lemma eig) as (y & t & E). unfold cp_positions. rewrite E. cbn [cp_moved]. unfold in_cell. cbn [fst snd cols fax linear_vf vf_of first_above uneven].
  destruct (Rlt_dec 15 0); [lra|]. destruct (Rlt_dec 15 10); [lra|]. destruct (Rlt_dec 15 11); [lra|]. reflexivity.
Qed.
