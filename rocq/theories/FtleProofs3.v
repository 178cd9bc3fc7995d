From Coq Require Import Reals List Bool ZArith Lia Lra.
From Verif Require Import Res FtleModel FtleSpec FtleProofs FtleProofs2.
Import ListNotations.
#[local] Open Scope R_scope.

(** ** The loop ends when the relative errors are bounded *)
Section Ends.
Variables (z : zone) (vel : vec -> vec) (reverse : bool) (rel d dt E : R).
Hypothesis R0 : 0 < rel.
Hypothesis D : 0 <= d < 1.
Hypothesis E0 : 0 < E.
Hypothesis G : forall p h, within z p -> 0 < h <= dt -> move vel reverse p h <> 0 /\ gap vel reverse p h <= E * move vel reverse p h.
Variable mu : R.
Hypothesis M0 : 0 < mu <= 1.
Hypothesis M1 : mu <= rel / (2 * E).
Lemma sqrt_sqrt_above x : mu ^ 4 <= x -> mu <= sqrt (sqrt x).
Proof.
  intro H. assert (A : mu = sqrt (mu ^ 2)) by (replace (mu ^ 2) with (mu * mu) by ring; symmetry; apply sqrt_square; lra).
  assert (B : mu ^ 2 = sqrt (mu ^ 4)) by (replace (mu ^ 4) with (mu ^ 2 * mu ^ 2) by ring; symmetry; apply sqrt_square; apply pow2_ge_0).
  rewrite A, B. apply sqrt_le_1_alt. apply sqrt_le_1_alt. exact H.
Qed.
Lemma next_above p h : within z p -> mu <= h <= dt -> next_step vel reverse rel d p h = Inf \/ exists k, next_step vel reverse rel d p h = Num k /\ mu <= k.
Proof.
  intros I H. destruct (G p h I) as [M L]; [lra|]. unfold next_step. destruct (Req_EM_T (move vel reverse p h) 0) as [X|_]; [contradiction|].
  destruct (Req_EM_T (gap vel reverse p h) 0) as [X|N].
  - destruct (Req_EM_T (rel * h) 0) as [Y|_]; [nra|]. destruct (Req_EM_T (1 - d) 0); [lra|]. left. reflexivity.
  - right. eexists. split; [reflexivity|]. assert (gp : 0 < gap vel reverse p h) by (assert (0 <= gap vel reverse p h) by apply sqrt_pos; lra).
    assert (mp : 0 < move vel reverse p h) by (assert (0 <= move vel reverse p h) by apply sqrt_pos; lra).
    assert (mu <= sqrt (sqrt (rel * h / (2 * (gap vel reverse p h / move vel reverse p h))))).
    { apply sqrt_sqrt_above. set (r := gap vel reverse p h / move vel reverse p h).
      assert (r0 : 0 < r) by (apply Rdiv_lt_0_compat; assumption).
      assert (rE : r <= E) by (apply (Rmult_le_reg_r (move vel reverse p h)); [exact mp|]; unfold r; field_simplify; [lra|lra]).
      assert (A : mu ^ 4 <= mu * mu) by (assert (mu * mu <= 1) by nra; nra).
      assert (B : mu * mu <= rel / (2 * E) * h) by nra.
      assert (C : rel / (2 * E) * h <= rel * h / (2 * r)).
      { apply (Rmult_le_reg_r (2 * E)); [lra|]. apply (Rmult_le_reg_r (2 * r)); [lra|].
        replace (rel / (2 * E) * h * (2 * E) * (2 * r)) with (rel * h * (2 * r)) by (field; lra).
        replace (rel * h / (2 * r) * (2 * E) * (2 * r)) with (rel * h * (2 * E)) by (field; lra). apply Rmult_le_compat_l; nra. }
      lra. }
    nra.
Qed.
Lemma loop_end f p t h : exists r, time_loop z vel reverse rel d dt f p t h true = Some r.
Proof. destruct f; cbn [time_loop]; destruct (beyond z p); eexists; reflexivity. Qed.
Lemma loop_ends n p t h : 0 <= t <= dt -> dt - t < INR n * mu -> h = Inf \/ (exists k, h = Num k /\ mu <= k) -> exists r, time_loop z vel reverse rel d dt n p t h false = Some r.
Proof.
  revert p t h. induction n as [|n IH]; intros p t h T L H; [cbn in L; lra|]. cbn [time_loop]. destruct (beyond z p) eqn:B; [eexists; reflexivity|]. apply beyond_within in B.
  destruct H as [-> | (k & -> & K)]; [apply loop_end|]. destruct (Rlt_dec dt (t + k)); [apply loop_end|].
  rewrite S_INR in L. apply IH; [lra|lra|]. apply next_above; [exact B|lra].
Qed.
End Ends.

Lemma INR_exceeds x : exists n, x < INR n.
Proof.
  exists (Z.to_nat (up x)). destruct (archimed x) as [A _]. destruct (Z_le_gt_dec 0 (up x)) as [H|H].
  - rewrite INR_IZR_INZ, Z2Nat.id by exact H. lra.
  - assert (IZR (up x) <= 0) by (apply IZR_le; lia). pose proof (pos_INR (Z.to_nat (up x))). lra.
Qed.
Lemma displacement_ends z vel p dt rel d E : 0 < hx z -> dt <> 0 -> 0 < rel -> 0 <= d < 1 ->
  (forall q h, within z q -> 0 < h <= Rabs dt -> move vel (backward dt) q h <> 0 /\ gap vel (backward dt) q h <= E * move vel (backward dt) q h) ->
  exists f r, displacement z vel f p dt rel d = Ok (Some r).
Proof.
  intros H T R0 D G. assert (A : 0 < Rabs dt) by (apply Rabs_pos_lt; exact T).
  set (E' := Rmax E 1). assert (E0 : 0 < E') by (unfold E'; pose proof (Rmax_r E 1); lra).
  assert (G' : forall q h, within z q -> 0 < h <= Rabs dt -> move vel (backward dt) q h <> 0 /\ gap vel (backward dt) q h <= E' * move vel (backward dt) q h).
  { intros q h I K. destruct (G q h I K) as [M L]. split; [exact M|]. apply (Rle_trans _ _ _ L). apply Rmult_le_compat_r; [apply sqrt_pos|apply Rmax_l]. }
  assert (Q : 0 < rel / (2 * E')) by (apply Rdiv_lt_0_compat; lra).
  assert (F : first_step z vel (backward dt) p = Inf \/ exists k, first_step z vel (backward dt) p = Num k /\ 0 < k).
  { unfold first_step. destruct (Req_EM_T (vnorm _) 0) as [N|N]; [destruct (Req_EM_T (hx z) 0); [lra|left; reflexivity]|].
    right. eexists. split; [reflexivity|]. assert (0 <= vnorm (speed vel (backward dt) p)) by apply sqrt_pos. apply Rdiv_lt_0_compat; lra. }
  set (k0 := match first_step z vel (backward dt) p with Num k => k | _ => 1 end).
  assert (K0 : 0 < k0) by (unfold k0; destruct F as [-> | (k & -> & K)]; lra).
  set (mu := Rmin k0 (Rmin 1 (rel / (2 * E')))).
  assert (M : 0 < mu /\ mu <= 1 /\ mu <= rel / (2 * E') /\ mu <= k0).
  { unfold mu. pose proof (Rmin_l k0 (Rmin 1 (rel / (2 * E')))). pose proof (Rmin_r k0 (Rmin 1 (rel / (2 * E')))).
    pose proof (Rmin_l 1 (rel / (2 * E'))). pose proof (Rmin_r 1 (rel / (2 * E'))). split; [|lra]. apply Rmin_glb_lt; [exact K0|]. apply Rmin_glb_lt; lra. }
  destruct M as (M0 & M1 & M2 & M3).
  destruct (INR_exceeds (Rabs dt / mu)) as [n N]. exists n.
  destruct (loop_ends z vel (backward dt) rel d (Rabs dt) E' R0 D E0 G' mu (conj M0 M1) M2 n p 0 (first_step z vel (backward dt) p)) as [r L].
  - lra.
  - apply (Rmult_lt_compat_r mu) in N; [|exact M0]. replace (Rabs dt / mu * mu) with (Rabs dt) in N by (field; lra). lra.
  - destruct F as [-> | (k & F & K)]; [left; reflexivity|]. right. exists k. split; [exact F|]. unfold k0 in M3. rewrite F in M3. exact M3.
  - exists r. apply displacement_ok. repeat split; try assumption; try lra. symmetry. exact L.
Qed.

(** ** rel_err is not the greatest error *)
Lemma squares_move : fst (new_xy squares false (1, 0) (9 / 10)) < 72 / 10 /\ 7 < fst (new_xy squares false (1, 0) (9 / 10)) /\ snd (new_xy squares false (1, 0) (9 / 10)) = 0.
Proof.
  unfold new_xy, k5, k4, k3, k2, k1, speed, squares, vadd, vsub, vscale. cbn [fst snd]. split; [lra|]. split; [lra|ring].
Qed.
Lemma inaccurate f rel d : 0 < rel -> 0 <= d <= 1 -> exists q, displacement long_zone squares (S f) (1, 0) (9 / 10) rel d = Ok (Some (q, false)) /\ fst q < 72 / 10.
Proof.
  intros Rl D. destruct squares_move as (A & B & C). exists (new_xy squares false (1, 0) (9 / 10)). split; [|exact A].
  apply displacement_ok. split; [lra|]. split; [exact Rl|]. split; [exact D|]. symmetry.
  assert (Bk : backward (9 / 10) = false) by (unfold backward; destruct (Rlt_dec (9 / 10) 0); [lra|reflexivity]). rewrite Bk. rewrite Rabs_right by lra.
  assert (F : first_step long_zone squares false (1, 0) = Num 1).
  { unfold first_step, speed, squares, vnorm. cbn [fst snd]. replace (((1 ^ 2) ^ 2 + 0 ^ 2)) with 1 by ring. rewrite sqrt_1. destruct (Req_EM_T 1 0); [lra|]. cbn. f_equal. field. }
  rewrite F. cbn [time_loop]. assert (I : within long_zone (1, 0)) by (unfold within, long_zone; cbn; lra). rewrite (proj2 (beyond_within _ _) I).
  destruct (Rlt_dec (9 / 10) (0 + 1)) as [_|N]; [|lra]. replace (9 / 10 - 0) with (9 / 10) by ring.
  assert (J : within long_zone (new_xy squares false (1, 0) (9 / 10))) by (unfold within, long_zone; cbn [x0 x1 y0 y1]; rewrite C; lra).
  destruct f; cbn [time_loop]; rewrite (proj2 (beyond_within _ _) J); reflexivity.
Qed.
Lemma squares_solution t : t < 1 -> derivable_pt_lim (fun t => / (1 - t)) t ((/ (1 - t)) ^ 2).
Proof.
  intro T. assert (H : derivable_pt_lim (fun t => 1 - t) t (-1)).
  { replace (-1) with (0 - 1) by ring. apply (derivable_pt_lim_minus (fct_cte 1) id); [apply derivable_pt_lim_const|apply derivable_pt_lim_id]. }
  assert (K : derivable_pt_lim (/ (fun t => 1 - t)%R)%F t (- (-1) / Rsqr (1 - t))).
  { apply (derivable_pt_lim_div (fct_cte 1) (fun t => 1 - t) t 0 (-1)) in H; [|apply derivable_pt_lim_const|lra].
    unfold fct_cte in H. replace ((0 * (1 - t) - -1 * 1) / Rsqr (1 - t)) with (- (-1) / Rsqr (1 - t)) in H by (unfold Rsqr; field; lra).
    intros e e0. destruct (H e e0) as [a Ha]. exists a. intros u u0 ua. specialize (Ha u u0 ua). unfold div_fct, inv_fct in *. unfold Rdiv in Ha at 2 3. rewrite !Rmult_1_l in Ha. exact Ha. }
  replace ((/ (1 - t)) ^ 2) with (- (-1) / Rsqr (1 - t)) by (unfold Rsqr; field; lra). exact K.
Qed.
