From Coq Require Import Reals List Bool ZArith Lia Lra.
From Verif Require Import Res FtleModel FtleSpec.
Import ListNotations.
#[local] Open Scope R_scope.

Lemma vec_ext (a b : vec) : fst a = fst b -> snd a = snd b -> a = b.
Proof. destruct a, b; cbn; congruence. Qed.
Ltac vec_tac := apply vec_ext; unfold vadd, vsub, vscale; cbn [fst snd].
Lemma beyond_within z p : beyond z p = false <-> within z p.
Proof.
  unfold beyond, within. destruct (Rlt_dec (fst p) (x0 z)); [split; [discriminate|lra]|]. destruct (Rlt_dec (x1 z) (fst p)); [split; [discriminate|lra]|].
  destruct (Rlt_dec (snd p) (y0 z)); [split; [discriminate|lra]|]. destruct (Rlt_dec (y1 z) (snd p)); [split; [discriminate|lra]|]. split; [lra|reflexivity].
Qed.

(** ** The method for affine velocities *)
Section Affine.
Variables (w : vec) (l : matrix) (vel : vec -> vec) (reverse : bool).
Hypothesis A : affine vel w l.
Definition sg : R := if reverse then -1 else 1.
Fixpoint pow_l (k : nat) (v : vec) : vec := match k with O => v | S k => apply l (pow_l k v) end.
Variable p : vec.
Fixpoint lc (k : nat) (cs : list R) : vec := match cs with [] => (0, 0) | c :: r => vadd (vscale c (vscale (sg ^ k) (pow_l k (speed vel reverse p)))) (lc (S k) r) end.
Fixpoint padd (a b : list R) : list R := match a, b with [], r => r | r, [] => r | x :: r, y :: s => (x + y) :: padd r s end.
Lemma lc_add k a b : vadd (lc k a) (lc k b) = lc k (padd a b).
Proof.
  revert k b. induction a as [|x a IH]; intros k b; [cbn; vec_tac; ring|]. destruct b as [|y b]; [cbn; vec_tac; ring|]. cbn [lc padd]. rewrite <- IH. vec_tac; ring.
Qed.
Lemma lc_scale k c a : vscale c (lc k a) = lc k (map (Rmult c) a).
Proof. revert k. induction a as [|x a IH]; intro k; [cbn; vec_tac; ring|]. cbn [lc map]. rewrite <- IH. vec_tac; ring. Qed.
Lemma apply_add a b : apply l (vadd a b) = vadd (apply l a) (apply l b).
Proof. unfold apply. vec_tac; ring. Qed.
Lemma apply_scale c a : apply l (vscale c a) = vscale c (apply l a).
Proof. unfold apply. vec_tac; ring. Qed.
Lemma lc_apply k a : vscale sg (apply l (lc k a)) = lc (S k) a.
Proof.
  revert k. induction a as [|x a IH]; intro k; [unfold apply; cbn; vec_tac; ring|]. cbn [lc]. rewrite apply_add, !apply_scale. rewrite <- (IH (S k)). cbn [pow_l pow]. vec_tac; ring.
Qed.
Lemma speed_sg q : speed vel reverse q = vscale sg (vel q).
Proof. unfold speed, sg. destruct reverse; [reflexivity|vec_tac; ring]. Qed.
Lemma speed_lc cs : speed vel reverse (vadd p (lc 0 cs)) = lc 0 (1 :: cs).
Proof.
  cbn [lc]. rewrite <- lc_apply. generalize (lc 0 cs). intro v. rewrite !speed_sg, !A, apply_add. cbn [pow_l pow]. vec_tac; ring.
Qed.
Lemma speed_p : speed vel reverse p = lc 0 [1].
Proof. cbn. vec_tac; ring. Qed.
Lemma add_assoc a b c : vadd (vadd a b) c = vadd a (vadd b c).
Proof. vec_tac; ring. Qed.
Lemma sub_add a b : vsub a b = vadd a (vscale (-1) b).
Proof. vec_tac; ring. Qed.
Variable h : R.
Lemma k1_lc : k1 vel reverse p h = lc 0 [h].
Proof. unfold k1. rewrite speed_p, lc_scale. f_equal. cbn. f_equal. ring. Qed.
Ltac go := rewrite ?sub_add, ?lc_scale, ?add_assoc, ?lc_add; rewrite ?speed_lc, ?lc_scale.
Ltac fin := f_equal; cbn [padd map]; repeat (apply (f_equal2 cons); [field|]); reflexivity.
Lemma k2_lc : k2 vel reverse p h = lc 0 [h; h ^ 2 / 4].
Proof. unfold k2. rewrite k1_lc. go. fin. Qed.
Lemma k3_lc : k3 vel reverse p h = lc 0 [h; 3 / 8 * h ^ 2; 9 / 128 * h ^ 3].
Proof. unfold k3. rewrite k2_lc, k1_lc. go. fin. Qed.
Lemma k4_lc : k4 vel reverse p h = lc 0 [h; 12 / 13 * h ^ 2; 936 / 2197 * h ^ 3; 513 / 2197 * h ^ 4].
Proof. unfold k4. rewrite k3_lc, k2_lc, k1_lc. go. fin. Qed.
Lemma k5_lc : k5 vel reverse p h = lc 0 [h; h ^ 2; h ^ 3 / 2; 5 / 12 * h ^ 4; -5 / 104 * h ^ 5].
Proof. unfold k5. rewrite k4_lc, k3_lc, k2_lc, k1_lc. go. fin. Qed.
Lemma new_lc : new_xy vel reverse p h = vadd p (lc 0 [h; h ^ 2 / 2; h ^ 3 / 6; h ^ 4 / 24; h ^ 5 / 104]).
Proof. unfold new_xy. rewrite k5_lc, k4_lc, k3_lc, k1_lc. go. apply f_equal. fin. Qed.
Lemma k6_lc : k6 vel reverse p h = lc 0 [h; h ^ 2 / 2; h ^ 3 / 8; - h ^ 4 / 24; -11 / 1248 * h ^ 5; 11 / 832 * h ^ 6].
Proof. unfold k6. rewrite k5_lc, k4_lc, k3_lc, k2_lc, k1_lc. go. fin. Qed.
Lemma best_lc : best_xy vel reverse p h = vadd p (lc 0 [h; h ^ 2 / 2; h ^ 3 / 6; h ^ 4 / 24; h ^ 5 / 120; h ^ 6 / 2080]).
Proof. unfold best_xy. rewrite k6_lc, k5_lc, k4_lc, k3_lc, k1_lc. go. apply f_equal. fin. Qed.
Lemma apply_oriented v : apply (oriented reverse l) v = vscale sg (apply l v).
Proof. unfold apply, oriented, sg. destruct reverse; vec_tac; cbn; ring. Qed.
Lemma series_lc k cs : lc k cs = series (oriented reverse l) cs (vscale (sg ^ k) (pow_l k (speed vel reverse p))).
Proof.
  revert k. induction cs as [|c cs IH]; intro k; [reflexivity|]. cbn [lc series]. f_equal. rewrite IH. f_equal. rewrite apply_oriented, apply_scale. cbn [pow pow_l]. vec_tac; ring.
Qed.
Lemma new_affine : new_xy vel reverse p h = vadd p (series (oriented reverse l) [h; h ^ 2 / 2; h ^ 3 / 6; h ^ 4 / 24; h ^ 5 / 104] (speed vel reverse p)).
Proof. rewrite new_lc, series_lc. do 2 f_equal. cbn [pow pow_l]. vec_tac; ring. Qed.
Lemma best_affine : best_xy vel reverse p h = vadd p (series (oriented reverse l) [h; h ^ 2 / 2; h ^ 3 / 6; h ^ 4 / 24; h ^ 5 / 120; h ^ 6 / 2080] (speed vel reverse p)).
Proof. rewrite best_lc, series_lc. do 2 f_equal. cbn [pow pow_l]. vec_tac; ring. Qed.
End Affine.
