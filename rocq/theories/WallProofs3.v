(** * WallProofs3: where the wall is, what is kept, what is refused *)
From Coq Require Import Lia.
From Verif Require Import Num Res ListLib Arr FieldModel ScalarFieldModel VectorFieldModel FieldSpec FieldProofs FieldProofs2 FieldProofs3
  GradModel GradSpec GradProofs GradProofs2 PodModel WallModel WallSpec WallProofs WallProofs2.

Lemma axis_good d g : grid_sorted g -> 2 <= length (ax g) -> 2 <= length (ay g) -> is_dir d -> increasing (waxis d g) /\ 2 <= length (waxis d g).
Proof. intros (SX & SY) LX LY [-> | ->]; split; assumption. Qed.
Lemma nths_error (l m : list num) i k : k < length m -> nth_error l i = nth_error m k -> nths l i = nths m k.
Proof. intros L E. destruct (nth_error m k) as [a|] eqn:Q; [|apply nth_error_None in Q; lia]. apply nth_error_nths in Q, E. congruence. Qed.
(** the wall below the field *)
Lemma low_count g d pos kind : grid_sorted g -> 2 <= length (ax g) -> 2 <= length (ay g) -> is_dir d -> is_kind kind -> (pos < first_of (waxis d g))%num ->
  exists n, wall_checks g d pos kind = Ok (true, Z.of_nat n) /\ (qn n * first_step (waxis d g) <= first_of (waxis d g) - pos)%num /\ (first_of (waxis d g) - pos < (qn n + 1) * first_step (waxis d g))%num.
Proof.
  intros S LX LY D K H. destruct (axis_good d g S LX LY D) as (I & L). pose proof (step_pos _ I L) as P.
  destruct (quot_floor (first_of (waxis d g) - pos)%num (first_step (waxis d g)) P) as (n & E & A & B); [qlra|]. exists n. split; [|split; assumption].
  apply checks_run; try assumption. left. rewrite E. auto.
Qed.
Lemma high_count g d pos kind : grid_sorted g -> 2 <= length (ax g) -> 2 <= length (ay g) -> is_dir d -> is_kind kind -> (last_of (waxis d g) <= pos)%num ->
  exists n, wall_checks g d pos kind = Ok (false, Z.of_nat n) /\ (qn n * first_step (waxis d g) <= pos - nths (waxis d g) 1)%num /\ (pos - nths (waxis d g) 1 < (qn n + 1) * first_step (waxis d g))%num.
Proof.
  intros S LX LY D K H. destruct (axis_good d g S LX LY D) as (I & L). pose proof (step_pos _ I L) as P.
  pose proof (increasing_nondecreasing _ I 1 (length (waxis d g) - 1) ltac:(lia) ltac:(lia)) as Q. unfold last_of in H.
  destruct (quot_floor (pos - nths (waxis d g) 1)%num (first_step (waxis d g)) P) as (n & E & A & B); [qlra|]. exists n. split; [|split; assumption].
  apply checks_run; try assumption. right. rewrite E. auto.
Qed.
Lemma low_end l l' n : increasing l -> 2 <= length l -> axis_extends l l' n 0 -> first_of l' = (first_of l - qn n * first_step l)%num.
Proof.
  intros I L (Ln & _ & A & B & _). unfold first_of, first_step. destruct n as [|n].
  - assert (E : nths l' 0 = nths l 0). { apply nths_error; [lia|exact (B 0 ltac:(lia))]. } rewrite E. change (qn 0) with (qz 0). qring.
  - rewrite (A 0) by lia. change (qn 0) with (qz 0). qring.
Qed.
Lemma high_end l l' n : increasing l -> 2 <= length l -> axis_extends l l' 0 n -> last_of l' = (last_of l + qn n * (nths l (length l - 1) - nths l (length l - 2)))%num.
Proof.
  intros I L (Ln & _ & _ & B & A). unfold last_of. cbn [Nat.add] in Ln. destruct n as [|n].
  - assert (E : nths l' (length l' - 1) = nths l (length l - 1)). { rewrite Ln, Nat.add_0_r. apply nths_error; [lia|exact (B (length l - 1) ltac:(lia))]. } rewrite E. change (qn 0) with (qz 0). qring.
  - rewrite Ln. replace (length l + S n - 1) with (0 + length l + n) by lia. rewrite (A n) by lia. rewrite (qn_S n). qring.
Qed.
(** what the scalar field shows in the end *)
Lemma sf_end_facts nearest w d c f h f' : grid_sorted (sg f) -> sf_wf f' -> sf_wf h -> sf_clean h -> nearest_ok nearest -> sf_walled d c f h -> sf_filled nearest w h f' ->
  (exists x y v m, sf_shows h x y v m /\ across d x y = c) -> (forall x y, In x (ax (sg f)) -> In y (ay (sg f)) -> In x (ax (sg h)) /\ In y (ay (sg h))) ->
  (forall x y v m, sf_shows f' x y v m -> m = false /\ v <> None /\ (across d x y = c -> v = Some 0%num)) /\
  (forall x y v, sf_shows f x y (Some v) false -> across d x y <> c -> sf_shows f' x y (Some v) false).
Proof.
  intros Sf W' Wh C N Wd (G & P) (x0 & y0 & v0 & m0 & Sh0 & E0) Sub. split.
  - intros x y v m (i & j & Ei & Ej & Ev & Em). rewrite G in Ei, Ej. pose proof (nth_error_Some_lt _ _ _ Ei) as Li. pose proof (nth_error_Some_lt _ _ _ Ej) as Lj.
    destruct (P i j Li Lj) as (Pm & Pv). rewrite Pm in Em. subst m. rewrite Pv in Ev. split; [reflexivity|]. rewrite sf_clean_idx in C. split.
    + subst v. destruct (at_ (msk h) i j) eqn:M.
      * unfold or_else. destruct (w h i j); [discriminate|]. apply N. destruct (Wd _ _ _ _ Sh0) as (A & _). destruct (A E0) as (-> & ->). eauto.
      * intro Z. apply (C i j Li Lj) in Z. congruence.
    + intro Q. destruct (Wd x y (at_ (values h) i j) (at_ (msk h) i j)) as (A & _); [exists i, j; auto|]. destruct (A Q) as (A1 & A2). rewrite A2 in Ev. congruence.
  - intros x y v Sh Q. assert (IX : In x (ax (sg f)) /\ In y (ay (sg f))) by (destruct Sh as (i & j & Ei & Ej & _); split; eapply nth_error_In; eauto).
    destruct (Sub x y (proj1 IX) (proj2 IX)) as (JX & JY). apply In_nth_error in JX, JY. destruct JX as (i & Ei), JY as (j & Ej).
    pose proof (nth_error_Some_lt _ _ _ Ei) as Li. pose proof (nth_error_Some_lt _ _ _ Ej) as Lj.
    assert (Hs : sf_shows h x y (at_ (values h) i j) (at_ (msk h) i j)) by (exists i, j; auto). destruct (Wd _ _ _ _ Hs) as (_ & A & _). specialize (A Q (proj1 IX) (proj2 IX)).
    exists i, j. rewrite G. split; [exact Ei|]. split; [exact Ej|]. destruct (P i j Li Lj) as (Pm & Pv). split; [|exact Pm]. rewrite Pv.
    destruct (shows_unique f x y _ _ _ _ Sf A Sh) as (-> & ->). reflexivity.
Qed.
Lemma vshows_unique f x y v w m v' w' m' : grid_sorted (vg f) -> vf_shows f x y v w m -> vf_shows f x y v' w' m' -> v = v' /\ w = w' /\ m = m'.
Proof.
  intros (SX & SY) (i & j & A & B & C & D & E) (i' & j' & A' & B' & C' & D' & E'). pose proof (nth_error_Some_lt _ _ _ A). pose proof (nth_error_Some_lt _ _ _ B). pose proof (nth_error_Some_lt _ _ _ A'). pose proof (nth_error_Some_lt _ _ _ B').
  apply nth_error_nths in A, A', B, B'. assert (i = i') by (apply (increasing_inj _ _ _ SX); auto; congruence). assert (j = j') by (apply (increasing_inj _ _ _ SY); auto; congruence). subst. auto.
Qed.
Lemma comp_shows g v m u s i j x y q : grid_sorted g -> 2 <= length (ax g) -> 2 <= length (ay g) -> has_shape v (length (ax g)) (length (ay g)) ->
  sf_import (ax g) (ay g) v (Some m) (ux g) (uy g) u = Ok s -> nth_error (ax g) i = Some x -> nth_error (ay g) j = Some y -> at_ v i j = Some q -> at_ m i j = false -> sf_shows s x y (Some q) false.
Proof.
  intros (SX & SY) LX LY (V0 & V1) E EX EY V M. rewrite (sf_import_plain _ _ v m _ _ u SX SY LX LY V0 V1) in E. assert (Es : s = mksf (mkgrid (ax g) (ay g) (ux g) (uy g)) v (amap2 orb m (amap isnan v)) u) by congruence. subst s.
  exists i, j. cbn [sg ax ay values msk raw at_ amap2 amap]. rewrite V, M. cbn. auto.
Qed.
Lemma vf_end_facts nearest w d c f h f' : grid_sorted (vg f) -> grid_sorted (vg h) -> 2 <= length (ax (vg h)) -> 2 <= length (ay (vg h)) -> vf_wf h -> nearest_ok nearest -> vf_walled d c f h -> vf_filled nearest w h f' ->
  (exists x y v v' m, vf_shows h x y v v' m /\ across d x y = c) -> (forall x y, In x (ax (vg f)) -> In y (ay (vg f)) -> In x (ax (vg h)) /\ In y (ay (vg h))) ->
  (forall x y vx vy m, vf_shows f' x y vx vy m -> m = false /\ vx <> None /\ vy <> None /\ (across d x y = c -> vx = Some 0%num /\ vy = Some 0%num)) /\
  (forall x y vx vy, vf_shows f x y (Some vx) (Some vy) false -> across d x y <> c -> vf_shows f' x y (Some vx) (Some vy) false).
Proof.
  intros Sf Sh LX LY (W1 & W2 & W3) N Wd (G & sx & sy & Ex & Ey & P) (a0 & b0 & v0 & w0 & m0 & Sh0 & E0) Sub.
  destruct (Wd _ _ _ _ _ Sh0) as (Q0 & _). destruct (Q0 E0) as (-> & -> & ->). clear Q0. destruct Sh0 as (i0 & j0 & X0 & Y0 & U0 & V0 & M0).
  pose proof (comp_shows (vg h) (cx h) (vmsk h) (vuv h) sx i0 j0 a0 b0 _ Sh LX LY W1 Ex X0 Y0 U0 M0) as Nx.
  pose proof (comp_shows (vg h) (cy h) (vmsk h) (vuv h) sy i0 j0 a0 b0 _ Sh LX LY W2 Ey X0 Y0 V0 M0) as Ny.
  split.
  - intros x y vx vy m (i & j & Ei & Ej & Ev & Ew & Em). rewrite G in Ei, Ej. pose proof (nth_error_Some_lt _ _ _ Ei) as Li. pose proof (nth_error_Some_lt _ _ _ Ej) as Lj.
    destruct (P i j Li Lj) as (Pm & Px & Py & Pv & Pw). rewrite Pm in Em. subst m. rewrite Pv in Ev. rewrite Pw in Ew. split; [reflexivity|]. split; [|split].
    + subst vx. destruct (at_ (msk sx) i j) eqn:M; [unfold or_else; destruct (w sx i j); [discriminate|]; apply N; eauto|]. symmetry in Px. apply orb_false_iff in Px. destruct Px as (_ & Px). destruct (at_ (cx h) i j); [discriminate|discriminate Px].
    + subst vy. destruct (at_ (msk sy) i j) eqn:M; [unfold or_else; destruct (w sy i j); [discriminate|]; apply N; eauto|]. symmetry in Py. apply orb_false_iff in Py. destruct Py as (_ & Py). destruct (at_ (cy h) i j); [discriminate|discriminate Py].
    + intro Q. destruct (Wd x y (at_ (cx h) i j) (at_ (cy h) i j) (at_ (vmsk h) i j)) as (A & _); [exists i, j; auto 6|]. destruct (A Q) as (A1 & A2 & A3). rewrite Px, A1, A3 in Ev. rewrite Py, A2, A3 in Ew. cbn in Ev, Ew. auto.
  - intros x y vx vy Sx Q. assert (IX : In x (ax (vg f)) /\ In y (ay (vg f))) by (destruct Sx as (i & j & Ei & Ej & _); split; eapply nth_error_In; eauto).
    destruct (Sub x y (proj1 IX) (proj2 IX)) as (JX & JY). apply In_nth_error in JX, JY. destruct JX as (i & Ei), JY as (j & Ej).
    pose proof (nth_error_Some_lt _ _ _ Ei) as Li. pose proof (nth_error_Some_lt _ _ _ Ej) as Lj.
    assert (Hs : vf_shows h x y (at_ (cx h) i j) (at_ (cy h) i j) (at_ (vmsk h) i j)) by (exists i, j; auto 6). destruct (Wd _ _ _ _ _ Hs) as (_ & A & _). specialize (A Q (proj1 IX) (proj2 IX)).
    destruct (vshows_unique f x y _ _ _ _ _ _ Sf A Sx) as (A1 & A2 & A3).
    exists i, j. rewrite G. split; [exact Ei|]. split; [exact Ej|]. destruct (P i j Li Lj) as (Pm & Px & Py & Pv & Pw). rewrite Px, A1, A3 in Pv. rewrite Py, A2, A3 in Pw. cbn in Pv, Pw. auto.
Qed.
(** the grid of the result has a wall and the grid of the field *)
Lemma grown_in d low n g g' : grid_sorted g -> 2 <= length (ax g) -> 2 <= length (ay g) -> is_dir d -> grown d low n g g' ->
  2 <= length (ax g') /\ 2 <= length (ay g') /\ (forall x y, In x (ax g) -> In y (ay g) -> In x (ax g') /\ In y (ay g')) /\
  exists i j x y, nth_error (ax g') i = Some x /\ nth_error (ay g') j = Some y /\ across d x y = end_of low (waxis d g').
Proof.
  intros S LX LY D (A & B & _). assert (K : forall x, In x (waxis d g) -> In x (waxis d g')).
  { intros x Ix. apply In_nth_error in Ix. destruct Ix as (k & Ek). pose proof (nth_error_Some_lt _ _ _ Ek) as Lk. destruct A as (_ & _ & _ & A & _). rewrite <- A in Ek by exact Lk. eapply nth_error_In; eauto. }
  assert (L : 2 <= length (waxis d g')). { destruct A as (-> & _). destruct (axis_good d g S LX LY D). lia. }
  assert (Z : exists k, nth_error (waxis d g') k = Some (end_of low (waxis d g'))).
  { destruct low; cbn [end_of]; [exists 0|exists (length (waxis d g') - 1)]; unfold first_of, last_of, nths; apply nth_error_nth'; lia. }
  destruct Z as (k & Ek). destruct D as [-> | ->]; cbn [waxis along_axis across] in *.
  - split; [exact L|]. rewrite B. split; [exact LY|]. split; [intros; split; auto|]. exists k, 0, (end_of low (ax g')), (nths (ay g) 0). split; [exact Ek|]. split; [apply nth_error_nth'; lia|reflexivity].
  - rewrite B. split; [exact LX|]. split; [exact L|]. split; [intros; split; auto|]. exists 0, k, (nths (ax g) 0), (end_of low (ay g')). split; [apply nth_error_nth'; lia|]. split; [exact Ek|reflexivity].
Qed.
Lemma sf_side nearest linear cubic f d pos kind low n : sf_wf f -> sf_clean f -> grid_sorted (sg f) -> 2 <= length (ax (sg f)) -> 2 <= length (ay (sg f)) -> is_dir d -> nearest_ok nearest ->
  wall_checks (sg f) d pos kind = Ok (low, Z.of_nat n) ->
  exists f' w, sf_until_wall nearest linear cubic f d pos kind = Ok f' /\ sf_wf f' /\ grid_sorted (sg f') /\ grown d low n (sg f) (sg f') /\ uv f' = uv f /\ w = end_of low (waxis d (sg f')) /\
    (forall x y v m, sf_shows f' x y v m -> m = false /\ v <> None /\ (across d x y = w -> v = Some 0%num)) /\
    (forall x y v, sf_shows f x y (Some v) false -> across d x y <> w -> sf_shows f' x y (Some v) false) /\
    (exists h, sf_wf h /\ sf_walled d w f h /\ sf_filled nearest (wall_interp linear cubic kind) h f').
Proof.
  intros W C S LX LY D N E. destruct (sf_wall_run nearest linear cubic f d pos kind low n W C S LX LY D E) as (h & f' & R & W' & S' & G & U & Wh & Wd & Fl & Ch).
  destruct (grown_in d low n _ _ S LX LY D G) as (LX' & LY' & Sub & (i & j & x & y & Ei & Ej & Q)). pose proof Fl as (Gh & _).
  exists f', (end_of low (waxis d (sg f'))). destruct (sf_end_facts nearest (wall_interp linear cubic kind) d _ f h f' S W' Wh Ch N Wd Fl) as (F1 & F2).
  - rewrite Gh in Ei, Ej. exists x, y, (at_ (values h) i j), (at_ (msk h) i j). split; [exists i, j; auto|exact Q].
  - rewrite <- Gh. exact Sub.
  - repeat (split; [assumption||reflexivity|]). exists h. auto.
Qed.
Lemma vf_side nearest linear cubic f d pos kind low n : vf_wf f -> grid_sorted (vg f) -> 2 <= length (ax (vg f)) -> 2 <= length (ay (vg f)) -> is_dir d -> nearest_ok nearest ->
  wall_checks (vg f) d pos kind = Ok (low, Z.of_nat n) ->
  exists f' w, vf_until_wall nearest linear cubic f d pos kind = Ok f' /\ vf_wf f' /\ grid_sorted (vg f') /\ grown d low n (vg f) (vg f') /\ vuv f' = vuv f /\ w = end_of low (waxis d (vg f')) /\
    (forall x y vx vy m, vf_shows f' x y vx vy m -> m = false /\ vx <> None /\ vy <> None /\ (across d x y = w -> vx = Some 0%num /\ vy = Some 0%num)) /\
    (forall x y vx vy, vf_shows f x y (Some vx) (Some vy) false -> across d x y <> w -> vf_shows f' x y (Some vx) (Some vy) false) /\
    (exists h, vf_wf h /\ vf_walled d w f h /\ vf_filled nearest (wall_interp linear cubic kind) h f').
Proof.
  intros W S LX LY D N E. destruct (vf_wall_run nearest linear cubic f d pos kind low n W S LX LY D E) as (h & f' & R & W' & S' & G & U & Wh & Wd & Fl).
  destruct (grown_in d low n _ _ S LX LY D G) as (LX' & LY' & Sub & (i & j & x & y & Ei & Ej & Q)). pose proof Fl as (Gh & _).
  exists f', (end_of low (waxis d (vg f'))). destruct (vf_end_facts nearest (wall_interp linear cubic kind) d (end_of low (waxis d (vg f'))) f h f') as (F1 & F2); try assumption; try (rewrite <- Gh; assumption).
  - rewrite Gh in Ei, Ej. exists x, y, (at_ (cx h) i j), (at_ (cy h) i j), (at_ (vmsk h) i j). split; [exists i, j; auto 6|exact Q].
  - repeat (split; [assumption||reflexivity|]). exists h. auto.
Qed.
(** how far beyond the position the wall is put, above the field *)
Lemma even_over l l' h pos n : even_axis l h -> 2 <= length l -> increasing l -> axis_extends l l' 0 n -> (qn n * first_step l <= pos - nths l 1)%num -> (pos - nths l 1 < (qn n + 1) * first_step l)%num ->
  (pos + (qn (length l) - qz 3) * h < last_of l')%num /\ (last_of l' <= pos + (qn (length l) - 2) * h)%num.
Proof.
  intros (H & A) L I X Q1 Q2. rewrite (high_end l l' n I L X). unfold last_of, first_step in *.
  rewrite (A (length l - 1)) by lia. rewrite (A (length l - 2)) by lia. rewrite (A 1) in Q1, Q2 by lia. rewrite (A 0) in Q1, Q2 by lia.
  replace (qn (length l - 1)) with (qn (length l) - 1)%num by (replace (length l) with (S (length l - 1)) at 1 by lia; rewrite qn_S; qring).
  replace (qn (length l - 2)) with (qn (length l) - 2)%num by (replace (length l) with (S (S (length l - 2))) at 1 by lia; rewrite !qn_S; change (qz 2) with (1 + 1)%num; qring).
  change (qn 1) with 1%num in *. change (qn 0) with 0%num in *. unfold first_of in *. change (qz 3) with (1 + 2)%num. change (qz 2) with (1 + 1)%num. set (N := qn (length l)) in *. set (k := qn n) in *. set (a := nths l 0) in *. split; qnra.
Qed.
(** the first coordinate is refused *)
Lemma edge_refused nearest linear cubic f d kind : grid_sorted (sg f) -> 2 <= length (ax (sg f)) -> 2 <= length (ay (sg f)) -> is_dir d -> is_kind kind ->
  sf_until_wall nearest linear cubic f d (first_of (waxis d (sg f))) kind = Err ValueErr.
Proof.
  intros S LX LY D K. assert (E : wall_checks (sg f) d (first_of (waxis d (sg f))) kind = Ok (false, (-1)%Z)).
  { destruct (axis_good d (sg f) S LX LY D) as (I & L). unfold wall_checks.
    assert (Nat.ltb (length (ax (sg f))) 2 = false) as -> by (apply Nat.ltb_ge; exact LX). assert (Nat.ltb (length (ay (sg f))) 2 = false) as -> by (apply Nat.ltb_ge; exact LY). cbn [orb guard].
    assert (X : wall_inside (waxis d (sg f)) (first_of (waxis d (sg f))) = false /\ wall_count (waxis d (sg f)) (first_of (waxis d (sg f))) = Ok (false, (-1)%Z)).
    { unfold wall_inside, wall_count, first_of. assert (qltb (nths (waxis d (sg f)) 0) (nths (waxis d (sg f)) 0) = false) as Q by (apply qltb_ge; qlra). rewrite Q, andb_false_r. split; [reflexivity|].
      pose proof (step_pos _ I L) as P. unfold first_step in P. assert (qeqb (nths (waxis d (sg f)) 1 - nths (waxis d (sg f)) 0)%num 0%num = false) as -> by (apply qeqb_neq; now apply qgt_neq). cbn [guard].
      replace ((nths (waxis d (sg f)) 0 - nths (waxis d (sg f)) 1) / (nths (waxis d (sg f)) 1 - nths (waxis d (sg f)) 0))%num with (- (1))%num; [reflexivity|]. qfield. now apply qgt_neq. }
    destruct X as (X1 & X2). destruct D as [-> | ->]; rewrite X1; cbn [guard]; destruct K as [-> | ->]; exact X2. }
  unfold sf_until_wall. rewrite E. reflexivity.
Qed.
Lemma inside_refused nearest linear cubic f d pos kind : 2 <= length (ax (sg f)) -> 2 <= length (ay (sg f)) -> is_dir d ->
  (first_of (waxis d (sg f)) < pos)%num -> (pos < last_of (waxis d (sg f)))%num -> sf_until_wall nearest linear cubic f d pos kind = Err ValueErr.
Proof.
  intros LX LY D A B. unfold sf_until_wall, wall_checks.
  assert (Nat.ltb (length (ax (sg f))) 2 = false) as -> by (apply Nat.ltb_ge; exact LX). assert (Nat.ltb (length (ay (sg f))) 2 = false) as -> by (apply Nat.ltb_ge; exact LY). cbn [orb guard].
  assert (X : wall_inside (waxis d (sg f)) pos = true) by (unfold wall_inside; apply andb_true_iff; split; apply qltb_lt; assumption).
  destruct D as [-> | ->]; rewrite X; reflexivity.
Qed.
