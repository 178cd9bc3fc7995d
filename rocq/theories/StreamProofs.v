From Coq Require Import Reals List Bool ZArith Lia Lra.
From Verif Require Import Res StreamModel StreamSpec.
Import ListNotations.
#[local] Open Scope R_scope.

Lemma outside_inside e p : is_outside e p = false <-> inside e p.
Proof.
  unfold is_outside, inside. destruct (Rlt_dec (fst p) (xa e)); [split; [discriminate|lra]|]. destruct (Rlt_dec (xb e) (fst p)); [split; [discriminate|lra]|].
  destruct (Rlt_dec (snd p) (ya e)); [split; [discriminate|lra]|]. destruct (Rlt_dec (yb e) (snd p)); [split; [discriminate|lra]|]. split; [lra|reflexivity].
Qed.
Lemma unscaled_scaled e p : proper e -> unscaled e (scaled e p) = p.
Proof. intros [A B]. unfold unscaled, scaled. destruct p as [x y]. cbn. f_equal; field; lra. Qed.
Lemma scaled_unscaled e p : proper e -> scaled e (unscaled e p) = p.
Proof. intros [A B]. unfold unscaled, scaled. destruct p as [x y]. cbn. f_equal; field; lra. Qed.
Lemma inside_unscaled e p : proper e -> inside unit_square p -> inside e (unscaled e p).
Proof. intros [A B] [C D]. unfold inside, unscaled in *. cbn in *. nra. Qed.
Lemma div_le_1 a b : 0 < b -> (0 <= a / b <= 1 <-> 0 <= a <= b).
Proof.
  intro B. assert (E : a / b * b = a) by (field; lra). generalize dependent (a / b). intros q E. split; nra.
Qed.
Lemma inside_scaled e p : proper e -> (inside unit_square (scaled e p) <-> inside e p).
Proof.
  intros [A B]. unfold inside, scaled. cbn. rewrite !div_le_1 by lra. lra.
Qed.
Lemma outside_scaled e p : proper e -> is_outside unit_square (scaled e p) = is_outside e p.
Proof.
  intro H. destruct (is_outside e p) eqn:E.
  - destruct (is_outside unit_square (scaled e p)) eqn:F; [reflexivity|]. apply outside_inside in F. apply (inside_scaled e p H) in F. apply outside_inside in F. congruence.
  - apply outside_inside in E. apply outside_inside. apply inside_scaled; assumption.
Qed.

Section Lines.
Variable e : extent.
Variable flow : pt -> option R -> pt * bool.
Variable vel : pt -> R * R.
Variable masked : pt -> bool.
Variable dxy : R.
Notation get := (get_streamlines e flow vel masked dxy).
Notation ln := (line flow vel masked dxy).

Lemma get_lines s n k r h : all_lines (get s n k r h) = map (one_line e flow vel masked dxy n k r) (filter (fun p => negb (is_outside unit_square p)) (scaled_seeds e s)).
Proof. unfold get_streamlines. destruct (map _ _) as [|a [|b l]]; reflexivity. Qed.
Lemma filter_scaled l : proper e -> filter (fun p => negb (is_outside unit_square p)) (map (scaled e) l) = map (scaled e) (filter (fun p => negb (is_outside e p)) l).
Proof.
  intro P. induction l as [|p l IH]; [reflexivity|]. cbn [map filter]. rewrite outside_scaled by exact P. destruct (is_outside e p); cbn; rewrite IH; reflexivity.
Qed.
Lemma stream_starts l n k r h : proper e ->
  map (fun x => nth_error x 0) (all_lines (get (Floats l) n k r h)) = map (fun p => Some (p, Some 0)) (filter (fun p => negb (is_outside e p)) l).
Proof.
  intro P. rewrite get_lines. unfold scaled_seeds. rewrite filter_scaled by exact P. rewrite !map_map. apply map_ext. intro p. cbn. rewrite unscaled_scaled by exact P. reflexivity.
Qed.
Lemma stream_one p n k r h : proper e -> inside e p -> exists x, get (One p) n k r h = Single x /\ nth_error x 0 = Some (p, Some 0).
Proof.
  intros P I. unfold get_streamlines. cbn [scaled_seeds filter]. rewrite outside_scaled by exact P. rewrite (proj2 (outside_inside e p) I). cbn [negb map].
  eexists. split; [reflexivity|]. cbn. rewrite unscaled_scaled by exact P. reflexivity.
Qed.
Lemma line_length n k r p a t : (length (ln n k r p a t) <= n)%nat.
Proof.
  revert a t. induction n as [|n IH]; intros a t; [apply le_n|]. cbn. destruct (time_step _ _ _ _ _ _) as [h|]; [|cbn; lia]. destruct (flow p (add_time t h)) as [q ok].
  match goal with |- context [if ?b then [] else _] => destruct b end; [cbn; lia|]. cbn. destruct ok; [specialize (IH q (add_time t h)); lia|cbn; lia].
Qed.
Lemma stream_bounded s n k r h x : In x (all_lines (get s n k r h)) -> (1 <= length x <= S n)%nat.
Proof.
  rewrite get_lines. intro H. apply in_map_iff in H as (p & <- & _). unfold one_line. rewrite map_length. cbn. pose proof (line_length n k r p p (Some 0)). lia.
Qed.
(** kind 'length' *)
Lemma line_inside n r p a t : inside unit_square p -> forall i q u, nth_error ((a, t) :: ln n Length r p a t) i = Some (q, u) -> (S i < length ((a, t) :: ln n Length r p a t))%nat -> inside unit_square q /\ masked q = false.
Proof.
  intros P. revert a t. induction n as [|n IH]; intros a t i q u; [cbn; lia|]. cbn [line]. unfold time_step at 1 2.
  destruct (is_outside unit_square a) eqn:O; [cbn; lia|]. destruct (masked a) eqn:M; [cbn; lia|]. apply outside_inside in O.
  set (h := if Reqb (norm (vel a)) 0 then Ok None else Ok (Some (dxy / norm (vel a) * r))). destruct h as [h|]; [|cbn; lia].
  destruct (flow p (add_time t h)) as [z ok]. destruct i as [|i]; [cbn; intros E _; injection E as <- <-; split; assumption|].
  destruct ok; [|cbn; destruct i; cbn; intros; lia].
  intros E L. apply (IH z (add_time t h) i q u); [exact E|]. cbn [length] in L |- *. lia.
Qed.
Lemma stream_inside s n r h x i p t : proper e -> In x (all_lines (get s n Length r h)) -> nth_error x i = Some (p, t) -> (S i < length x)%nat -> inside e p /\ masked (scaled e p) = false.
Proof.
  intros P. rewrite get_lines. intro H. apply in_map_iff in H as (z & <- & Z). apply filter_In in Z as [_ Z]. apply negb_true_iff in Z. apply outside_inside in Z.
  unfold one_line. rewrite map_length, nth_error_map. intros E L. destruct (nth_error _ i) as [[q u]|] eqn:N; [|discriminate E]. injection E as <- <-. cbn [fst].
  destruct (line_inside n r z z (Some 0) Z i q u N L) as [A B]. rewrite scaled_unscaled by exact P. split; [apply inside_unscaled; assumption|exact B].
Qed.
(** integer seeds *)
Lemma truncate_0 x : 0 < x < 1 -> truncate x = 0.
Proof.
  intros [A B]. unfold truncate. destruct (Rlt_dec x 0); [lra|]. replace (Int_part x) with 0%Z; [reflexivity|].
  symmetry. apply one_IZR_lt1. pose proof (base_Int_part x). lra.
Qed.
Lemma div_lt_1 a b : 0 < a < b -> 0 < a / b < 1.
Proof. intros [A B]. assert (E : a / b * b = a) by (field; lra). generalize dependent (a / b). intros q E. split; nra. Qed.
Lemma stream_ints (z : Z * Z) n k r h : xa e < IZR (fst z) < xb e -> ya e < IZR (snd z) < yb e -> exists x, get (Ints [z]) n k r h = Single x /\ nth_error x 0 = Some ((xa e, ya e), Some 0).
Proof.
  intros A B. unfold get_streamlines, scaled_seeds. cbn [map]. cbv zeta. unfold scaled. cbn [fst snd].
  rewrite !truncate_0 by (apply div_lt_1; lra). cbn [filter]. 
  assert (is_outside unit_square (0, 0) = false) as -> by (apply outside_inside; unfold inside; cbn; lra). cbn [negb map]. eexists. split; [reflexivity|]. cbn. unfold unscaled. cbn. do 3 f_equal; ring.
Qed.
End Lines.

Lemma INR_above x : exists n, x < INR n.
Proof.
  exists (Z.to_nat (up x)). destruct (archimed x) as [A _]. destruct (Z_le_gt_dec 0 (up x)) as [H|H].
  - rewrite INR_IZR_INZ, Z2Nat.id by exact H. lra.
  - assert (IZR (up x) <= 0) by (apply IZR_le; lia). pose proof (pos_INR (Z.to_nat (up x))). lra.
Qed.
(** a uniform flow to the right, as the solver follows it exactly *)
Definition to_the_right (p : pt) (t : option R) : pt * bool := ((fst p + match t with Some t => t | None => 0 end, snd p), true).
Lemma Rltb_false a b : b <= a -> Rltb a b = false.
Proof. unfold Rltb. destruct (Rlt_dec a b); [lra|reflexivity]. Qed.
Lemma right_line vel masked dxy n r p : 0 < dxy -> dxy / 40 <= r -> forall j m, (m <= n)%nat -> (j <= m)%nat ->
  @nth_error (pt * option R) ((fst p + INR (n - m) * r, snd p, Some (INR (n - m) * r)) :: line to_the_right vel masked dxy m Time r p (fst p + INR (n - m) * r, snd p) (Some (INR (n - m) * r))) j =
  Some (fst p + INR (n - m + j) * r, snd p, Some (INR (n - m + j) * r)).
Proof.
  intros D Rr. induction j as [|j IH]; intros m M J; [cbn; rewrite Nat.add_0_r; reflexivity|].
  destruct m as [|m]; [lia|]. cbn [line time_step to_the_right add_time fst snd nth_error].
  assert (E : INR (n - S m) * r + r = INR (n - m) * r) by (replace (n - m)%nat with (S (n - S m)) by lia; rewrite S_INR; ring).
  rewrite E. rewrite Rltb_false.
  - specialize (IH m ltac:(lia) ltac:(lia)). refine (eq_trans IH _). replace (n - S m + S j)%nat with (n - m + j)%nat by lia. reflexivity.
  - replace (fst p + INR (n - m) * r - (fst p + INR (n - S m) * r)) with r by lra. nra.
Qed.
Lemma stream_time e vel masked dxy r p n j h : proper e -> inside e p -> 0 < dxy -> dxy / 40 <= r -> (j <= n)%nat ->
  exists x, get_streamlines e to_the_right vel masked dxy (One p) n Time r h = Single x /\ nth_error x j = Some ((fst p + INR j * r * (xb e - xa e), snd p), Some (INR j * r)).
Proof.
  intros P I D Rr J. unfold get_streamlines. cbn [scaled_seeds filter]. rewrite outside_scaled by exact P. rewrite (proj2 (outside_inside e p) I). cbn [negb map].
  eexists. split; [reflexivity|]. unfold one_line. rewrite nth_error_map.
  pose proof (right_line vel masked dxy n r (scaled e p) D Rr j n (le_n n) J) as H. rewrite Nat.sub_diag in H. cbn [INR] in H. rewrite Rmult_0_l, Rplus_0_r in H. rewrite <- surjective_pairing in H. cbn [Nat.add] in H.
  match goal with |- option_map _ ?z = _ => transitivity (option_map (fun q => (unscaled e (fst q), snd q)) (@Some (pt * option R) (fst (scaled e p) + INR j * r, snd (scaled e p), Some (INR j * r)))); [apply f_equal; exact H|] end. cbn. f_equal. f_equal. unfold unscaled, scaled. destruct P as [A B]. cbn. f_equal; field; lra.
Qed.
Lemma stream_time_refuted e vel masked dxy r p h : proper e -> inside e p -> 0 < dxy -> dxy / 40 <= r -> forall far,
  exists n x q t, get_streamlines e to_the_right vel masked dxy (One p) n Time r h = Single x /\ In (q, t) x /\ xb e + far < fst q.
Proof.
  intros P I D Rr far. assert (r0 : 0 < r) by lra. pose proof P as [A B].
  destruct (INR_above ((xb e + far - fst p) / (r * (xb e - xa e)))) as [n N].
  destruct (stream_time e vel masked dxy r p n n h P I D Rr (le_n n)) as (x & X & Y). exists n, x. eexists. eexists. split; [exact X|]. split; [apply nth_error_In in Y; exact Y|]. cbn.
  assert (Z : 0 < r * (xb e - xa e)) by (apply Rmult_lt_0_compat; lra).
  apply (Rmult_lt_compat_r _ _ _ Z) in N. replace ((xb e + far - fst p) / (r * (xb e - xa e)) * (r * (xb e - xa e))) with (xb e + far - fst p) in N by (field; lra). lra.
Qed.
Lemma stream_leaves e dxy r y n h : proper e -> ya e <= y <= yb e -> 0 < dxy -> 0 < r ->
  exists q t, get_streamlines e to_the_right (fun _ => (1, 0)) (fun _ => false) dxy (One (xb e, y)) (S n) Length r h = Single [((xb e, y), Some 0); (q, t)] /\ ~ inside e q.
Proof.
  intros P Y D Rr. pose proof P as [A B]. unfold get_streamlines. cbn [scaled_seeds filter]. rewrite outside_scaled by exact P.
  assert (I : inside e (xb e, y)) by (unfold inside; cbn; lra).
  rewrite (proj2 (outside_inside e _) I). cbn [negb map]. unfold one_line. cbn [line]. unfold time_step.
  rewrite outside_scaled by exact P. rewrite (proj2 (outside_inside e _) I).
  assert (N1 : norm (1, 0) = 1) by (unfold norm; cbn [fst snd]; replace (1 ^ 2 + 0 ^ 2) with 1 by ring; apply sqrt_1). rewrite N1.
  unfold Reqb. destruct (Req_EM_T 1 0) as [Q|_]; [lra|]. cbn [to_the_right add_time].
  set (q1 := (fst (scaled e (xb e, y)) + (0 + dxy / 1 * r), snd (scaled e (xb e, y)))).
  assert (O : is_outside unit_square q1 = true).
  { destruct (is_outside unit_square q1) eqn:O; [reflexivity|]. apply outside_inside in O. exfalso. unfold q1, inside, scaled in O. cbn in O.
    replace ((xb e - xa e) / (xb e - xa e)) with 1 in O by (field; lra). assert (0 < dxy / 1 * r) by (apply Rmult_lt_0_compat; lra). lra. }
  assert (T : line to_the_right (fun _ => (1, 0)) (fun _ => false) dxy n Length r (scaled e (xb e, y)) q1 (Some (0 + dxy / 1 * r)) = []).
  { destruct n; [reflexivity|]. cbn [line]. unfold time_step. rewrite O. reflexivity. }
  rewrite T. cbn [map fst snd]. rewrite unscaled_scaled by exact P.
  eexists. eexists. split; [reflexivity|]. intro IN. apply (proj2 (inside_scaled e _ P)) in IN. rewrite scaled_unscaled in IN by exact P. apply outside_inside in IN. congruence.
Qed.

(** ** The velocities followed *)
Lemma followed_stream e ad v : proper e -> 0 < ad -> same_way v (stretched e (followed Streamlines e ad false v)) /\ same_way (opposite v) (stretched e (followed Streamlines e ad true v)).
Proof.
  intros [A B] D. unfold same_way, stretched, followed, dimensionless, opposite. cbn [fst snd].
  assert (K : 0 < (yb e - ya e) / ad) by (apply Rdiv_lt_0_compat; lra).
  split; exists ((yb e - ya e) / ad); (split; [exact K|split; field; lra]).
Qed.
Lemma followed_ortho w e ad rev v : proper e -> 0 < ad -> w <> Streamlines -> dot v (stretched e (followed w e ad rev v)) = 0.
Proof.
  intros [A B] D N. destruct w; [congruence| |]; unfold dot, stretched, followed, dimensionless, field_velocity, track_velocity; destruct rev; cbn [fst snd]; field; lra.
Qed.
Lemma followed_field e ad v : proper e -> 0 < ad -> same_way (field_velocity v) (stretched e (followed Fieldlines e ad false v)) /\ same_way (opposite (field_velocity v)) (stretched e (followed Fieldlines e ad true v)).
Proof. intros P D. apply (followed_stream e ad (field_velocity v) P D). Qed.
Lemma followed_track e ad v : proper e -> 0 < ad -> v <> (0, 0) ->
  same_way (track_velocity v) (stretched e (followed Tracklines e ad true v)) /\ ~ same_way (opposite (track_velocity v)) (stretched e (followed Tracklines e ad true v)).
Proof.
  intros P D N. destruct (followed_stream e ad (track_velocity v) P D) as [H _]. split; [exact H|].
  change (stretched e (followed Tracklines e ad true v)) with (stretched e (followed Streamlines e ad false (track_velocity v))).
  destruct H as (k & K & X & Y). intros (m & M & X' & Y'). rewrite X in X'. rewrite Y in Y'. unfold opposite, track_velocity in X', Y'. cbn [fst snd] in X', Y'.
  apply N. destruct v as [a b]. cbn [fst snd] in *. f_equal; nra.
Qed.
