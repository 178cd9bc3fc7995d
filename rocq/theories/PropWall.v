(** * PropWall: extrapolation of a field until a wall (C253 - C256) *)
From Coq Require Import Lia.
From Verif Require Import Num Res ListLib Arr FieldModel ScalarFieldModel VectorFieldModel FieldSpec
  GradModel GradSpec PodModel WallModel WallSpec WallProofs WallProofs2 WallProofs3 Concrete.
#[local] Ltac vmr := vm_compute; reflexivity.

(** ** C253: a wall below the field is put at its position (to one step), the result is null on it and defined everywhere, and the
    measured values that are not on the wall line are kept *)
Theorem C253_scalar nearest linear cubic f d pos kind :
  sf_wf f -> sf_clean f -> grid_sorted (sg f) -> 2 <= length (ax (sg f)) -> 2 <= length (ay (sg f)) -> is_dir d -> is_kind kind -> nearest_ok nearest ->
  (pos < first_of (waxis d (sg f)))%num ->
  exists f' n w, sf_until_wall nearest linear cubic f d pos kind = Ok f' /\ sf_wf f' /\ grid_sorted (sg f') /\ grown d true n (sg f) (sg f') /\ uv f' = uv f /\
    w = first_of (waxis d (sg f')) /\ (pos <= w)%num /\ (w < pos + first_step (waxis d (sg f)))%num /\
    (forall x y v m, sf_shows f' x y v m -> m = false /\ v <> None /\ (across d x y = w -> v = Some 0%num)) /\
    (forall x y v, sf_shows f x y (Some v) false -> across d x y <> w -> sf_shows f' x y (Some v) false) /\
    (exists h, sf_wf h /\ sf_walled d w f h /\ sf_filled nearest (wall_interp linear cubic kind) h f').
Proof.
  intros W C S LX LY D K N H. destruct (low_count (sg f) d pos kind S LX LY D K H) as (n & E & A & B).
  destruct (sf_side nearest linear cubic f d pos kind true n W C S LX LY D N E) as (f' & w & R & W' & S' & G & U & Ew & F1 & F2 & F3).
  destruct (axis_good d (sg f) S LX LY D) as (I & L). pose proof (low_end _ _ n I L (proj1 G)) as Q. cbn [end_of] in Ew. exists f', n, w.
  repeat (split; [assumption|]). split; [rewrite Ew, Q; qlra|]. split; [rewrite Ew, Q; qlra|]. split; [exact F1|]. split; [exact F2|exact F3].
Qed.
Theorem C253_vector nearest linear cubic f d pos kind :
  vf_wf f -> grid_sorted (vg f) -> 2 <= length (ax (vg f)) -> 2 <= length (ay (vg f)) -> is_dir d -> is_kind kind -> nearest_ok nearest ->
  (pos < first_of (waxis d (vg f)))%num ->
  exists f' n w, vf_until_wall nearest linear cubic f d pos kind = Ok f' /\ vf_wf f' /\ grid_sorted (vg f') /\ grown d true n (vg f) (vg f') /\ vuv f' = vuv f /\
    w = first_of (waxis d (vg f')) /\ (pos <= w)%num /\ (w < pos + first_step (waxis d (vg f)))%num /\
    (forall x y vx vy m, vf_shows f' x y vx vy m -> m = false /\ vx <> None /\ vy <> None /\ (across d x y = w -> vx = Some 0%num /\ vy = Some 0%num)) /\
    (forall x y vx vy, vf_shows f x y (Some vx) (Some vy) false -> across d x y <> w -> vf_shows f' x y (Some vx) (Some vy) false) /\
    (exists h, vf_wf h /\ vf_walled d w f h /\ vf_filled nearest (wall_interp linear cubic kind) h f').
Proof.
  intros W S LX LY D K N H. destruct (low_count (vg f) d pos kind S LX LY D K H) as (n & E & A & B).
  destruct (vf_side nearest linear cubic f d pos kind true n W S LX LY D N E) as (f' & w & R & W' & S' & G & U & Ew & F1 & F2 & F3).
  destruct (axis_good d (vg f) S LX LY D) as (I & L). pose proof (low_end _ _ n I L (proj1 G)) as Q. cbn [end_of] in Ew. exists f', n, w.
  repeat (split; [assumption|]). split; [rewrite Ew, Q; qlra|]. split; [rewrite Ew, Q; qlra|]. split; [exact F1|]. split; [exact F2|exact F3].
Qed.
Print Assumptions C253_scalar.
Print Assumptions C253_vector.

(** a field of four columns (x = 2, 3, 4, 5) and two lines, with one masked cell *)
Definition ex_axis : list num := [qz 2; qz 3; qz 4; qz 5].
Definition ex_wall : sfield :=
  mksf (mkgrid ex_axis [0; 1]%num millimetre millimetre)
       (mkarr 4 2 (fun i j => if (Nat.eqb i 1 && Nat.eqb j 0)%bool then None else Some (qn (i + 10 * j) + 1)%num)) (mkarr 4 2 (fun i j => (Nat.eqb i 1 && Nat.eqb j 0)%bool)) metre.
Definition ex_near : interps := fun _ _ _ => Some (qz 7).
Lemma ex_near_ok : nearest_ok ex_near.
Proof. intros h i j _. discriminate. Qed.
Lemma ex_wall_ok : sf_wf ex_wall /\ sf_clean ex_wall /\ grid_sorted (sg ex_wall).
Proof.
  split; [repeat split|]. split.
  - intros x y v m (i & j & _ & _ & <- & <-). cbn. destruct (Nat.eqb i 1 && Nat.eqb j 0)%bool; cbn; split; congruence.
  - split; incr.
Qed.
Example C253_example : (exists f' n w, sf_until_wall ex_near ex_near ex_near ex_wall WX (qq 1 2) FLinear = Ok f' /\ sf_wf f' /\ grid_sorted (sg f') /\ grown WX true n (sg ex_wall) (sg f') /\ uv f' = uv ex_wall /\
    w = first_of (waxis WX (sg f')) /\ (qq 1 2 <= w)%num /\ (w < qq 1 2 + first_step (waxis WX (sg ex_wall)))%num /\
    (forall x y v m, sf_shows f' x y v m -> m = false /\ v <> None /\ (across WX x y = w -> v = Some 0%num)) /\
    (forall x y v, sf_shows ex_wall x y (Some v) false -> across WX x y <> w -> sf_shows f' x y (Some v) false) /\
    (exists h, sf_wf h /\ sf_walled WX w ex_wall h /\ sf_filled ex_near (wall_interp ex_near ex_near FLinear) h f')) /\
  match sf_until_wall ex_near ex_near ex_near ex_wall WX (qq 1 2) FLinear with
  | Ok f' => ax (sg f') = [qz 1; qz 2; qz 3; qz 4; qz 5] /\ at_ (values f') 0 1 = Some 0%num /\ at_ (values f') 1 1 = Some (qz 11) /\ at_ (values f') 2 0 = Some (qz 7)
  | Err _ => False end.
Proof.
  destruct ex_wall_ok as (W & C & S). split.
  - apply C253_scalar; try assumption; [cbn; lia|cbn; lia|now left|now left|exact ex_near_ok|now apply qltb_lt].
  - vm_compute. repeat split.
Qed.

(** ** C254: a wall above the field should be put at its position too.  Refuted: the number of added lines is counted from the second
    point of the axis and not from the last one, so on an even axis of N points the wall is N-2 steps too far (N-3 to N-2). *)
Theorem C254_high_refuted nearest linear cubic f d pos kind h :
  sf_wf f -> sf_clean f -> grid_sorted (sg f) -> 2 <= length (ax (sg f)) -> 2 <= length (ay (sg f)) -> is_dir d -> is_kind kind -> nearest_ok nearest ->
  even_axis (waxis d (sg f)) h -> 4 <= length (waxis d (sg f)) -> (last_of (waxis d (sg f)) <= pos)%num ->
  exists f' w, sf_until_wall nearest linear cubic f d pos kind = Ok f' /\ w = last_of (waxis d (sg f')) /\
    (forall x y v m, sf_shows f' x y v m -> across d x y = w -> v = Some 0%num) /\
    (pos + (qn (length (waxis d (sg f))) - qz 3) * h < w)%num /\ (w <= pos + (qn (length (waxis d (sg f))) - 2) * h)%num /\ (pos + h < w)%num.
Proof.
  intros W C S LX LY D K N EV L4 H. destruct (high_count (sg f) d pos kind S LX LY D K H) as (n & E & A & B).
  destruct (sf_side nearest linear cubic f d pos kind false n W C S LX LY D N E) as (f' & w & R & W' & S' & G & U & Ew & F1 & F2 & F3).
  destruct (axis_good d (sg f) S LX LY D) as (I & L). cbn [end_of] in Ew. destruct (even_over _ _ h pos n EV L I (proj1 G) A B) as (Q1 & Q2). exists f', w. rewrite Ew in *.
  split; [exact R|]. split; [reflexivity|]. split; [intros x y v m Sh; exact (proj2 (proj2 (F1 x y v m Sh)))|]. split; [exact Q1|]. split; [exact Q2|].
  assert (P : (qz 4 <= qn (length (waxis d (sg f))))%num) by (unfold qn; rewrite qz_le; lia). destruct EV as (Hp & _). change (qz 4) with (qz 3 + 1)%num in P. set (M := qn _) in *. qnra.
Qed.
Theorem C254_two_points_partial nearest linear cubic f d pos kind :
  sf_wf f -> sf_clean f -> grid_sorted (sg f) -> 2 <= length (ax (sg f)) -> 2 <= length (ay (sg f)) -> is_dir d -> is_kind kind -> nearest_ok nearest ->
  length (waxis d (sg f)) = 2 -> (last_of (waxis d (sg f)) <= pos)%num ->
  exists f' w, sf_until_wall nearest linear cubic f d pos kind = Ok f' /\ w = last_of (waxis d (sg f')) /\
    (forall x y v m, sf_shows f' x y v m -> m = false /\ v <> None /\ (across d x y = w -> v = Some 0%num)) /\
    (forall x y v, sf_shows f x y (Some v) false -> across d x y <> w -> sf_shows f' x y (Some v) false) /\
    (w <= pos)%num /\ (pos < w + first_step (waxis d (sg f)))%num.
Proof.
  intros W C S LX LY D K N L2 H. destruct (high_count (sg f) d pos kind S LX LY D K H) as (n & E & A & B).
  destruct (sf_side nearest linear cubic f d pos kind false n W C S LX LY D N E) as (f' & w & R & W' & S' & G & U & Ew & F1 & F2 & F3).
  destruct (axis_good d (sg f) S LX LY D) as (I & L). cbn [end_of] in Ew. pose proof (high_end _ _ n I L (proj1 G)) as Q. rewrite L2 in Q. cbn [Nat.sub] in Q. unfold last_of in Q at 2. rewrite L2 in Q. cbn [Nat.sub] in Q. fold (first_step (waxis d (sg f))) in Q.
  exists f', w. split; [exact R|]. split; [exact Ew|]. split; [exact F1|]. split; [exact F2|]. rewrite Ew, Q. split; qlra.
Qed.
Print Assumptions C254_high_refuted.
Print Assumptions C254_two_points_partial.
Lemma ex_even : even_axis (waxis WX (sg ex_wall)) 1%num.
Proof. split; [now apply qltb_lt|]. intros i Hi. cbn in Hi. do 4 (destruct i as [|i]; [vmr|]). lia. Qed.
(** the field ends at x = 5 and the wall is at x = 6: it is put at x = 8 *)
Example C254_example : (exists f' w, sf_until_wall ex_near ex_near ex_near ex_wall WX (qz 6) FLinear = Ok f' /\ w = last_of (waxis WX (sg f')) /\
    (forall x y v m, sf_shows f' x y v m -> across WX x y = w -> v = Some 0%num) /\
    (qz 6 + (qn 4 - qz 3) * 1 < w)%num /\ (w <= qz 6 + (qn 4 - 2) * 1)%num /\ (qz 6 + 1 < w)%num) /\
  match sf_until_wall ex_near ex_near ex_near ex_wall WX (qz 6) FLinear with Ok f' => ax (sg f') = [qz 2; qz 3; qz 4; qz 5; qz 6; qz 7; qz 8] | Err _ => False end.
Proof.
  destruct ex_wall_ok as (W & C & S). split.
  - apply (C254_high_refuted ex_near ex_near ex_near ex_wall WX (qz 6) FLinear 1%num); try assumption; [cbn; lia|cbn; lia|now left|now left|exact ex_near_ok|exact ex_even|cbn; lia|now apply qleb_le].
  - vmr.
Qed.
Example C254_two_points_example : length (waxis WY (sg ex_wall)) = 2 /\ (last_of (waxis WY (sg ex_wall)) <= qz 3)%num /\
  match sf_until_wall ex_near ex_near ex_near ex_wall WY (qz 3) FCubic with Ok f' => ay (sg f') = [qz 0; qz 1; qz 2; qz 3] /\ at_ (values f') 2 3 = Some 0%num /\ at_ (values f') 2 1 = Some (qz 13) | Err _ => False end.
Proof. split; [reflexivity|]. split; [now apply qleb_le|]. vm_compute. repeat split. Qed.

(** ** C255: the measured values should be kept.  They are when the wall is at least one step away from the field.  Refuted otherwise:
    no line is added and the first measured line is replaced by the wall. *)
Theorem C255_kept_partial nearest linear cubic f d pos kind :
  sf_wf f -> sf_clean f -> grid_sorted (sg f) -> 2 <= length (ax (sg f)) -> 2 <= length (ay (sg f)) -> is_dir d -> is_kind kind -> nearest_ok nearest ->
  (pos + first_step (waxis d (sg f)) <= first_of (waxis d (sg f)))%num ->
  exists f', sf_until_wall nearest linear cubic f d pos kind = Ok f' /\ forall x y v, sf_shows f x y (Some v) false -> sf_shows f' x y (Some v) false.
Proof.
  intros W C S LX LY D K N H. destruct (axis_good d (sg f) S LX LY D) as (I & L). pose proof (step_pos _ I L) as P.
  destruct (C253_scalar nearest linear cubic f d pos kind W C S LX LY D K N) as (f' & n & w & R & _ & _ & _ & _ & Ew & A & B & F1 & F2 & _); [qlra|].
  exists f'. split; [exact R|]. intros x y v Sh. apply F2; [exact Sh|]. intro Q.
  assert (X : (first_of (waxis d (sg f)) <= across d x y)%num).
  { assert (IX : In (across d x y) (waxis d (sg f))) by (destruct Sh as (i & j & Ei & Ej & _); destruct D as [-> | ->]; cbn; eapply nth_error_In; eauto).
    apply In_nth_error in IX. destruct IX as (k & Ek). pose proof (nth_error_Some_lt _ _ _ Ek) as Lk. apply nth_error_nths in Ek. rewrite <- Ek. apply (increasing_nondecreasing _ I); lia. }
  rewrite Q in X. qlra.
Qed.
Theorem C255_kept_refuted nearest linear cubic f d pos kind :
  sf_wf f -> sf_clean f -> grid_sorted (sg f) -> 2 <= length (ax (sg f)) -> 2 <= length (ay (sg f)) -> is_dir d -> is_kind kind -> nearest_ok nearest ->
  (pos < first_of (waxis d (sg f)))%num -> (first_of (waxis d (sg f)) < pos + first_step (waxis d (sg f)))%num ->
  exists f', sf_until_wall nearest linear cubic f d pos kind = Ok f' /\ waxis d (sg f') = waxis d (sg f) /\
    forall x y v m, sf_shows f' x y v m -> across d x y = first_of (waxis d (sg f)) -> v = Some 0%num.
Proof.
  intros W C Sg LX LY D K N H1 H2. destruct (axis_good d (sg f) Sg LX LY D) as (I & L). pose proof (step_pos _ I L) as P.
  destruct (C253_scalar nearest linear cubic f d pos kind W C Sg LX LY D K N H1) as (f' & n & w & R & _ & _ & G & _ & Ew & A & B & F1 & F2 & _).
  pose proof (low_end _ _ n I L (proj1 G)) as Q. assert (n = 0) as ->.
  { destruct n as [|n]; [reflexivity|exfalso]. assert (Z : (1 <= qn (S n))%num) by (unfold qn; change 1%num with (qz 1); rewrite qz_le; lia). rewrite Ew, Q in A. set (k := qn (S n)) in *. set (s := first_step _) in *. qnra. }
  pose proof (axis_same _ _ (proj1 G)) as Z. exists f'. split; [exact R|]. split; [exact Z|]. intros x y v m Sh X. apply (F1 x y v m Sh). rewrite Ew, Z. exact X.
Qed.
Print Assumptions C255_kept_partial.
Print Assumptions C255_kept_refuted.
(** the measured value 1 at (2, 0) is lost *)
Example C255_example : sf_shows ex_wall (qz 2) 0%num (Some 1%num) false /\
  match sf_until_wall ex_near ex_near ex_near ex_wall WX (qq 3 2) FLinear with Ok f' => ax (sg f') = ex_axis /\ at_ (values f') 0 0 = Some 0%num | Err _ => False end /\
  (exists f', sf_until_wall ex_near ex_near ex_near ex_wall WX (qz 1) FLinear = Ok f' /\ forall x y v, sf_shows ex_wall x y (Some v) false -> sf_shows f' x y (Some v) false).
Proof.
  destruct ex_wall_ok as (W & C & S). split; [exists 0, 0; vm_compute; repeat split|]. split; [vm_compute; repeat split|].
  apply C255_kept_partial; try assumption; [cbn; lia|cbn; lia|now left|now left|exact ex_near_ok|now apply qleb_le].
Qed.

(** ** C256: a position should be refused only when it is strictly inside the field.  Refuted: the first coordinate of the axis, which
    is on the edge, is taken for a position above the field and refused.  The other positions of the edge and outside are accepted
    (C253, C254), and a position strictly inside is refused. *)
Theorem C256_edge_refuted nearest linear cubic f d kind :
  grid_sorted (sg f) -> 2 <= length (ax (sg f)) -> 2 <= length (ay (sg f)) -> is_dir d -> is_kind kind ->
  sf_until_wall nearest linear cubic f d (first_of (waxis d (sg f))) kind = Err ValueErr.
Proof. exact (edge_refused nearest linear cubic f d kind). Qed.
Theorem C256_inside_partial nearest linear cubic f d pos kind :
  2 <= length (ax (sg f)) -> 2 <= length (ay (sg f)) -> is_dir d ->
  (first_of (waxis d (sg f)) < pos)%num -> (pos < last_of (waxis d (sg f)))%num -> sf_until_wall nearest linear cubic f d pos kind = Err ValueErr.
Proof. exact (inside_refused nearest linear cubic f d pos kind). Qed.
Print Assumptions C256_edge_refuted.
Print Assumptions C256_inside_partial.
Example C256_example : first_of (waxis WX (sg ex_wall)) = qz 2 /\ sf_until_wall ex_near ex_near ex_near ex_wall WX (qz 2) FLinear = Err ValueErr /\
  sf_until_wall ex_near ex_near ex_near ex_wall WX (qz 3) FLinear = Err ValueErr /\
  match sf_until_wall ex_near ex_near ex_near ex_wall WX (qz 5) FLinear with Ok _ => True | Err _ => False end.
Proof. vm_compute. repeat split. Qed.
