From Coq Require Import Reals List Bool ZArith Lia Lra.
From Verif Require Import Res FtleModel FtleSpec FtleProofs.
Import ListNotations.
#[local] Open Scope R_scope.

Section Loop.
Variables (z : zone) (vel : vec -> vec) (reverse : bool) (rel_err dampl dt : R).
Notation loop := (time_loop z vel reverse rel_err dampl dt).

Lemma loop_flag f p t h e q b : loop f p t h e = Some (q, b) -> b = beyond z q.
Proof.
  revert p t h e. induction f as [|f IH]; intros p t h e; cbn [time_loop]; destruct (beyond z p) eqn:B; try (intro H; injection H as <- <-; congruence).
  - destruct e; intro H; [injection H as <- <-; congruence|discriminate H].
  - destruct e; [intro H; injection H as <- <-; congruence|]. destruct h as [h| |]; [destruct (Rlt_dec dt (t + h)); apply IH|apply IH|discriminate].
Qed.
Lemma next_pos p h k : 0 <= dampl <= 1 -> 0 <= h -> next_step vel reverse rel_err dampl p h = Num k -> 0 <= k.
Proof.
  intros D H. unfold next_step. destruct (Req_EM_T (move _ _ _ _) 0).
  - destruct (Req_EM_T (gap _ _ _ _) 0); [discriminate|]. intro E. injection E as <-. apply Rmult_le_pos; lra.
  - destruct (Req_EM_T (gap _ _ _ _) 0); [destruct (Req_EM_T _ 0); [discriminate|destruct (Req_EM_T _ 0); discriminate]|]. intro E. injection E as <-.
    apply Rplus_le_le_0_compat; apply Rmult_le_pos; try lra. apply sqrt_pos.
Qed.
Lemma loop_travels p0 f p t h e q b : 0 <= dampl <= 1 -> travels z vel reverse p0 t p -> t <= dt -> (e = true -> t = dt) -> (forall k, h = Num k -> 0 <= k) ->
  loop f p t h e = Some (q, b) -> exists t', travels z vel reverse p0 t' q /\ t' <= dt /\ (b = false -> t' = dt).
Proof.
  intro D. revert p t h e. induction f as [|f IH]; intros p t h e T L E K; cbn [time_loop]; destruct (beyond z p) eqn:B;
    try (intro H; injection H as <- <-; exists t; split; [exact T|split; [exact L|discriminate]]).
  - destruct e; intro H; [|discriminate H]. injection H as <- <-. exists t. split; [exact T|]. split; [exact L|intros _; apply E; reflexivity].
  - destruct e; [intro H; injection H as <- <-; exists t; split; [exact T|]; split; [exact L|intros _; apply E; reflexivity]|].
    apply beyond_within in B.
    assert (Last : loop f (new_xy vel reverse p (dt - t)) (t + (dt - t)) (next_step vel reverse rel_err dampl p (dt - t)) true = Some (q, b) -> exists t', travels z vel reverse p0 t' q /\ t' <= dt /\ (b = false -> t' = dt)).
    { apply IH; [apply travels_step; [exact T|exact B|lra]|lra|intros _; lra|]. intros k N. apply (next_pos p (dt - t) k D); [lra|exact N]. }
    destruct h as [h| |]; [|exact Last|discriminate].
    destruct (Rlt_dec dt (t + h)) as [G|G]; [exact Last|]. specialize (K h eq_refl).
    apply IH; [apply travels_step; [exact T|exact B|exact K]|lra|discriminate|]. intros k N. apply (next_pos p h k D K N).
Qed.
Lemma loop_more f g p t h e r : (f <= g)%nat -> loop f p t h e = Some r -> loop g p t h e = Some r.
Proof.
  revert g p t h e. induction f as [|f IH]; intros g p t h e G; destruct g as [|g]; try lia; cbn [time_loop]; destruct (beyond z p); try (intro H; exact H); destruct e; try (intro H; exact H); try discriminate.
  destruct h as [h| |]; [|apply IH; lia|discriminate]. destruct (Rlt_dec dt (t + h)); apply IH; lia.
Qed.
End Loop.

Lemma displacement_ok z vel f p dt rel dampl r : displacement z vel f p dt rel dampl = Ok r <->
  dt <> 0 /\ 0 < rel /\ 0 <= dampl <= 1 /\ r = time_loop z vel (backward dt) rel dampl (Rabs dt) f p 0 (first_step z vel (backward dt) p) false.
Proof.
  unfold displacement, backward. destruct (Req_EM_T dt 0); [split; [discriminate|tauto]|]. destruct (Rle_dec rel 0); [split; [discriminate|lra]|].
  destruct (Rlt_dec dampl 0); [split; [discriminate|lra]|]. destruct (Rlt_dec 1 dampl); [split; [discriminate|lra]|].
  split.
  - intro H. injection H as <-. repeat split; try lra; assumption.
  - intros (_ & _ & _ & ->). reflexivity.
Qed.
Lemma displacement_flag z vel f p dt rel dampl q b : displacement z vel f p dt rel dampl = Ok (Some (q, b)) -> (b = true <-> ~ within z q).
Proof.
  intro H. apply displacement_ok in H as (_ & _ & _ & H). symmetry in H. apply loop_flag in H. subst b. rewrite <- beyond_within. destruct (beyond z q); split; intro X; try congruence; exfalso; apply X; reflexivity.
Qed.
Lemma first_pos z vel r p k : 0 <= hx z -> first_step z vel r p = Num k -> 0 <= k.
Proof.
  intros H. unfold first_step. destruct (Req_EM_T (vnorm _) 0) as [|N]; [destruct (Req_EM_T (hx z) 0); discriminate|]. intro E. injection E as <-.
  assert (0 <= vnorm (speed vel r p)) by apply sqrt_pos. apply Rmult_le_pos; [exact H|]. left. apply Rinv_0_lt_compat. lra.
Qed.
Lemma displacement_travels z vel f p dt rel dampl q b : 0 <= hx z -> displacement z vel f p dt rel dampl = Ok (Some (q, b)) ->
  exists t, travels z vel (backward dt) p t q /\ t <= Rabs dt /\ (b = false -> t = Rabs dt).
Proof.
  intros X H. apply displacement_ok in H as (_ & _ & D & H). symmetry in H. apply (loop_travels z vel (backward dt) rel dampl (Rabs dt) p f p 0 (first_step z vel (backward dt) p) false q b D); try assumption.
  - constructor.
  - apply Rabs_pos.
  - discriminate.
  - intros k. apply first_pos. exact X.
Qed.
Lemma travels_time z vel r p t q : travels z vel r p t q -> 0 <= t.
Proof. induction 1; lra. Qed.
Lemma displacement_more z vel f g p dt rel dampl r : (f <= g)%nat -> displacement z vel f p dt rel dampl = Ok (Some r) -> displacement z vel g p dt rel dampl = Ok (Some r).
Proof.
  intros G H. apply displacement_ok in H as (A & B & C & H). apply displacement_ok. repeat split; try assumption; try apply C. symmetry. eapply loop_more; [exact G|]. symmetry. exact H.
Qed.

(** ** Uniform velocities *)
Section Uniform.
Variables (z : zone) (vel : vec -> vec) (c : vec).
Hypothesis U : forall p, vel p = c.
Definition still : matrix := mkm 0 0 0 0.
Lemma uniform_affine : affine vel c still.
Proof. intro p. rewrite U. unfold apply, still. vec_tac; cbn; ring. Qed.
Lemma speed_uniform r p : speed vel r p = vscale (if r then -1 else 1) c.
Proof. unfold speed. rewrite U. destruct r; [reflexivity|vec_tac; ring]. Qed.
Definition sgn (r : bool) : R := if r then -1 else 1.
Lemma apply_still r v : apply (oriented r still) v = (0, 0).
Proof. unfold apply. destruct r; apply vec_ext; cbn [oriented still ma mb mc md fst snd]; ring. Qed.
Lemma series_0 r cs : series (oriented r still) cs (0, 0) = (0, 0).
Proof. induction cs as [|x cs IH]; [reflexivity|]. cbn [series]. rewrite apply_still, IH. vec_tac; ring. Qed.
Lemma series_still r x cs v : series (oriented r still) (x :: cs) v = vscale x v.
Proof. cbn [series]. rewrite apply_still, series_0. vec_tac; ring. Qed.
Lemma new_uniform r p h : new_xy vel r p h = vadd p (vscale (h * sgn r) c).
Proof. rewrite (new_affine c still vel r uniform_affine). rewrite speed_uniform, series_still. unfold sgn. destruct r; vec_tac; ring. Qed.
Lemma best_uniform r p h : best_xy vel r p h = vadd p (vscale (h * sgn r) c).
Proof. rewrite (best_affine c still vel r uniform_affine). rewrite speed_uniform, series_still. unfold sgn. destruct r; vec_tac; ring. Qed.
Lemma vnorm_0 : vnorm (0, 0) = 0.
Proof. unfold vnorm. cbn [fst snd]. replace (0 ^ 2 + 0 ^ 2) with 0 by ring. apply sqrt_0. Qed.
Lemma vnorm_zero v : vnorm v = 0 -> v = (0, 0).
Proof.
  unfold vnorm. pose proof (pow2_ge_0 (fst v)). pose proof (pow2_ge_0 (snd v)). intro E. apply sqrt_eq_0 in E; [|lra].
  assert (fst v ^ 2 = 0) by lra. assert (snd v ^ 2 = 0) by lra. apply vec_ext; cbn; nra.
Qed.
Lemma gap_uniform r p h : gap vel r p h = 0.
Proof. unfold gap. rewrite new_uniform, best_uniform. replace (vsub _ _) with (0, 0) by (vec_tac; ring). apply vnorm_0. Qed.
Lemma next_uniform r rel d p h : 0 < h -> 0 < rel -> c <> (0, 0) -> next_step vel r rel d p h = if Req_EM_T (1 - d) 0 then Nan else Inf.
Proof.
  intros H Rl C. unfold next_step. rewrite gap_uniform. destruct (Req_EM_T (move vel r p h) 0) as [M|M].
  - exfalso. apply C. unfold move in M. apply vnorm_zero in M. rewrite new_uniform in M. unfold vsub, vadd, vscale in M. cbn [fst snd] in M. injection M as M1 M2.
    assert (s : sgn r = 1 \/ sgn r = -1) by (unfold sgn; destruct r; auto). destruct c as [a b]. cbn [fst snd] in *. f_equal; destruct s as [s|s]; rewrite s in *; nra.
  - destruct (Req_EM_T 0 0) as [_|N]; [|contradiction]. destruct (Req_EM_T (rel * h) 0) as [N|_]; [nra|reflexivity].
Qed.
Definition aim (p : vec) (dt : R) : vec := vadd p (vscale dt c).
Lemma abs_sgn dt : Rabs dt * sgn (backward dt) = dt.
Proof. unfold backward, sgn. destruct (Rlt_dec dt 0); [rewrite Rabs_left by lra|rewrite Rabs_right by lra]; ring. Qed.
Lemma first_uniform r p : 0 < hx z -> first_step z vel r p = Inf \/ c <> (0, 0) /\ exists h, 0 < h /\ first_step z vel r p = Num h /\ h * vnorm c = hx z.
Proof.
  intro H. unfold first_step. rewrite speed_uniform. assert (E : vnorm (vscale (if r then -1 else 1) c) = vnorm c).
  { unfold vnorm, vscale. cbn [fst snd]. f_equal. destruct r; ring. }
  rewrite E. destruct (Req_EM_T (vnorm c) 0) as [N|N].
  - left. destruct (Req_EM_T (hx z) 0); [lra|reflexivity].
  - right. split; [intro X; apply N; rewrite X; apply vnorm_0|]. assert (0 <= vnorm c) by apply sqrt_pos. exists (hx z / vnorm c). split; [apply Rdiv_lt_0_compat; lra|]. split; [reflexivity|field; exact N].
Qed.
(** the particle goes where it should, in two steps at most *)
Lemma uniform_exact f p dt rel d : 0 < hx z -> dt <> 0 -> 0 < rel -> 0 <= d < 1 -> within z p -> within z (aim p dt) ->
  displacement z vel (S (S f)) p dt rel d = Ok (Some (aim p dt, false)).
Proof.
  intros H T Rl D I J. apply displacement_ok. split; [exact T|]. split; [exact Rl|]. split; [lra|]. symmetry.
  assert (A : 0 < Rabs dt) by (apply Rabs_pos_lt; exact T).
  pose proof (proj2 (beyond_within z p) I) as Bp. pose proof (proj2 (beyond_within z _) J) as Ba.
  assert (E0 : new_xy vel (backward dt) p (Rabs dt - 0) = aim p dt).
  { rewrite new_uniform, Rminus_0_r, abs_sgn. reflexivity. }
  cbn [time_loop]. rewrite Bp. destruct (first_uniform (backward dt) p H) as [-> | (C & h & h0 & -> & _)].
  - rewrite E0, Ba. reflexivity.
  - destruct (Rlt_dec (Rabs dt) (0 + h)) as [L|L]; [rewrite E0, Ba; reflexivity|].
    rewrite next_uniform by assumption. destruct (Req_EM_T (1 - d) 0) as [X|_]; [lra|]. rewrite new_uniform.
    set (q := vadd p (vscale (h * sgn (backward dt)) c)).
    assert (W : within z q).
    { assert (Y : exists u, 0 <= u <= 1 /\ h * sgn (backward dt) = u * dt).
      { exists (h / Rabs dt). split; [split; [apply Rlt_le, Rdiv_lt_0_compat; lra|]|transitivity (h / Rabs dt * (Rabs dt * sgn (backward dt))); [field; lra|rewrite abs_sgn; reflexivity]].
        apply (Rmult_le_reg_r (Rabs dt)); [exact A|]. unfold Rdiv. rewrite Rmult_assoc, Rinv_l by lra. lra. }
      destruct Y as (u & Hu & Eu). unfold q. rewrite Eu. unfold within, aim, vadd, vscale in *. cbn [fst snd] in *. destruct I as [I1 I2], J as [J1 J2].
      rewrite !Rmult_assoc. generalize dependent (dt * fst c). generalize dependent (dt * snd c). intros. split; split; nra. }
    rewrite (proj2 (beyond_within z q) W). rewrite new_uniform. replace (vadd q (vscale ((Rabs dt - (0 + h)) * sgn (backward dt)) c)) with (aim p dt).
    + destruct f as [|f]; cbn [time_loop]; rewrite Ba; reflexivity.
    + unfold q, aim. replace ((Rabs dt - (0 + h)) * sgn (backward dt)) with (Rabs dt * sgn (backward dt) - h * sgn (backward dt)) by ring. rewrite abs_sgn. vec_tac; ring.
Qed.
(** dampl = 1: the loop does not end *)
Lemma uniform_hangs f p dt rel h : 0 < hx z -> 0 < rel -> c <> (0, 0) -> h * vnorm c = hx z -> h <= Rabs dt -> within z p -> within z (vadd p (vscale (h * sgn (backward dt)) c)) ->
  displacement z vel f p dt rel 1 = Ok None.
Proof.
  intros H Rl C E L I J. assert (N : 0 <= vnorm c) by apply sqrt_pos. assert (h0 : 0 < h) by nra.
  apply displacement_ok. split; [intro X; rewrite X, Rabs_R0 in L; lra|]. split; [exact Rl|]. split; [lra|]. symmetry.
  destruct (first_uniform (backward dt) p H) as [F | (_ & k & k0 & F & K)].
  - exfalso. unfold first_step in F. rewrite speed_uniform in F. destruct (Req_EM_T _ 0) as [Y|Y]; [|discriminate F]. apply C. apply vnorm_zero in Y.
    unfold vscale in Y. injection Y as Y1 Y2. apply vec_ext; cbn; destruct (backward dt); lra.
  - assert (k = h) as -> by nra. rewrite F. destruct f as [|f]; cbn [time_loop]; rewrite (proj2 (beyond_within z p) I); [reflexivity|].
    destruct (Rlt_dec (Rabs dt) (0 + h)); [lra|]. rewrite next_uniform by assumption. destruct (Req_EM_T (1 - 1) 0) as [_|X]; [|lra]. rewrite new_uniform.
    destruct f as [|f]; cbn [time_loop]; rewrite (proj2 (beyond_within z _) J); reflexivity.
Qed.
End Uniform.
