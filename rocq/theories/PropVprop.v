(** * PropVprop: the properties C149 to C154: circulation, radius, centre and integrals of vortices, and their evolutions.
    Statements only; the proofs are in VpropProofs*.v.  The vocabulary is in VpropSpec and TemporalSpec. *)
From Coq Require Import Lia QArith Qcanon List Permutation.
From Verif Require Import Num Res ListLib SortLib Arr FieldModel ScalarFieldModel VectorFieldModel FieldSpec Concrete ProfileModel ProfileSpec PointsModel TemporalModel TemporalSpec TemporalEx
  VpropModel VpropSpec VpropProofs2 VpropProofs3 VpropProofs5 VpropProofs6.

(** a 3 x 3 velocity field, not at rest at its centre, and fields of criteria on the same grid *)
Definition ax3 : list Z := [0; 2; 4]%Z.
Definition ay3 : list Z := [0; 1; 2]%Z.
Definition ones33 : list (list onum) := [[oz 1; oz 1; oz 1]; [oz 1; oz 1; oz 1]; [oz 1; oz 1; oz 1]].
Definition vf33 : vfield := vf_of ax3 ay3 ones33 ones33 [].
Definition on33 (rows : list (list onum)) : sfield := sf_of ax3 ay3 rows [].
Definition wor : sfield := on33 [[oz 0; oz 1; oz 0]; [oz 0; oz 4; oz 3]; [oz 0; oz 0; oz 2]].
Lemma wor_ok : sg wor = vg vf33 /\ sf_wf wor /\ sf_clean wor /\ grid_sorted (vg vf33) /\ vf_wf vf33 /\ regular_axis (ax (vg vf33)) (qz 2) /\ regular_axis (ay (vg vf33)) (qz 1).
Proof.
  split; [reflexivity|]. split; [repeat split|]. split; [apply clean_b_ok; vmr|]. split; [split; incr|]. split; [repeat split|].
  split; (split; [reflexivity|]; split; [cbn; lia|]; intros i H; cbn in H; destruct i as [|[|[|i]]]; [qc|qc|qc|lia]).
Qed.
Lemma mid_ok : on_axis (ax (vg vf33)) (qz 2) /\ on_axis (ay (vg vf33)) (qz 1) /\ nearest_node (ax (vg vf33)) (qz 2) 1 /\ nearest_node (ay (vg vf33)) (qz 1) 1.
Proof.
  split; [split; [discriminate|split; discriminate]|]. split; [split; [discriminate|split; discriminate]|].
  split; (split; [cbn; lia|]; split; [intros k H; cbn in H; destruct k as [|[|[|k]]]; [discriminate|discriminate|discriminate|lia]|]);
    intros k H E; cbn in H; destruct k as [|[|[|k]]]; try lia; exfalso; apply (f_equal this) in E; vm_compute in E; discriminate.
Qed.

(** ** C149 *)
Theorem C149_zone crit f vort x y eps dx dy i j m :
  crit f = Ok vort -> sg vort = vg f -> sf_wf vort -> sf_clean vort -> grid_sorted (vg f) -> on_axis (ax (vg f)) x -> on_axis (ay (vg f)) y ->
  regular_axis (ax (vg f)) dx -> regular_axis (ay (vg f)) dy -> nearest_node (ax (vg f)) x i -> nearest_node (ay (vg f)) y j -> strongest vort m ->
  (~ stronger vort (eps * m)%num (i, j) -> vortex_circulation crit f x y eps = Ok (Some (qz 0), one_unit)) /\
  (stronger vort (eps * m)%num (i, j) -> exists z, zone (stronger vort (eps * m)%num) (i, j) z /\
     vortex_circulation crit f x y eps = Ok (Some (cell_sum vort (fun _ v => v) z * dx * dy)%num, unit_mul (unit_mul (uv vort) (ux (vg f))) (uy (vg f)))).
Proof. exact (circulation_lemma crit f vort x y eps dx dy i j m). Qed.
Print Assumptions C149_zone.

Lemma wor_strongest : strongest wor (qz 4).
Proof.
  split; [exists (1, 1), (qz 4); split; [repeat split; cbn; lia|qc]|]. intros [i j] v (H1 & H2 & _ & E). cbn in H1, H2, E.
  destruct i as [|[|[|i]]]; destruct j as [|[|[|j]]]; try lia; cbn in E; injection E as <-; discriminate.
Qed.
Example C149_example : sg wor = vg vf33 /\ sf_wf wor /\ sf_clean wor /\ grid_sorted (vg vf33) /\ on_axis (ax (vg vf33)) (qz 2) /\ on_axis (ay (vg vf33)) (qz 1) /\
  regular_axis (ax (vg vf33)) (qz 2) /\ regular_axis (ay (vg vf33)) (qz 1) /\ nearest_node (ax (vg vf33)) (qz 2) 1 /\ nearest_node (ay (vg vf33)) (qz 1) 1 /\ strongest wor (qz 4) /\
  stronger wor (qq 1 10 * qz 4)%num (1, 1) /\ ~ stronger wor (qq 1 10 * qz 4)%num (0, 0).
Proof.
  destruct wor_ok as (A & B & C & D & E & F & G). destruct mid_ok as (H & I & J & K). split; [exact A|]. split; [exact B|]. split; [exact C|]. split; [exact D|]. split; [exact H|]. split; [exact I|]. split; [exact F|]. split; [exact G|].
  split; [exact J|]. split; [exact K|]. split; [exact wor_strongest|]. split.
  - exists (qz 4). split; [repeat split; cbn; lia|reflexivity].
  - intros (v & (_ & _ & _ & Q) & L). cbn in Q. injection Q as <-. discriminate L.
Qed.

(** ** C150 *)
Theorem C150_opposite crit f g vf vg0 x y eps dx dy m :
  crit f = Ok vf -> crit g = Ok vg0 -> opposite vf vg0 -> vg g = vg f -> sg vf = vg f -> sf_wf vf -> sf_clean vf -> sf_wf vg0 -> sf_clean vg0 ->
  grid_sorted (vg f) -> on_axis (ax (vg f)) x -> on_axis (ay (vg f)) y -> regular_axis (ax (vg f)) dx -> regular_axis (ay (vg f)) dy -> strongest vf m ->
  exists v u, vortex_circulation crit f x y eps = Ok (Some v, u) /\ vortex_circulation crit g x y eps = Ok (Some (- v)%num, u).
Proof. exact (circulation_opposite crit f g vf vg0 x y eps dx dy m). Qed.
Print Assumptions C150_opposite.

Definition wor_opp : sfield := on33 [[oz 0; oz (-1); oz 0]; [oz 0; oz (-4); oz (-3)]; [oz 0; oz 0; oz (-2)]].
Example C150_example : opposite wor wor_opp /\ sf_wf wor_opp /\ sf_clean wor_opp /\ strongest wor (qz 4).
Proof.
  split.
  - split; [reflexivity|]. split; [reflexivity|]. intros i j Hi Hj. cbn in Hi, Hj. destruct i as [|[|[|i]]]; destruct j as [|[|[|j]]]; try lia; (split; [reflexivity|apply oeqb_eq; vmr]).
  - split; [repeat split|]. split; [apply clean_b_ok; vmr|]. exact wor_strongest.
Qed.

(** ** C151 *)
Theorem C151_zone_partial crit rad f vort x y eps dx dy i j v0 z1 m :
  crit f = Ok vort -> sg vort = vg f -> sf_wf vort -> sf_clean vort -> grid_sorted (vg f) -> on_axis (ax (vg f)) x -> on_axis (ay (vg f)) y ->
  regular_axis (ax (vg f)) dx -> regular_axis (ay (vg f)) dy -> nearest_node (ax (vg f)) x i -> nearest_node (ay (vg f)) y j ->
  shows_at vort (i, j) v0 -> (eps * v0 < v0)%num -> zone (higher vort (eps * v0)%num) (i, j) z1 -> highest vort z1 m -> (eps * m < v0)%num ->
  exists z c, zone (higher vort (eps * m)%num) (i, j) z /\ vortex_radius crit rad f x y eps = Ok (rad (qn (length z) * dx * dy)%num, c).
Proof. exact (radius_zone crit rad f vort x y eps dx dy i j v0 z1 m). Qed.
Print Assumptions C151_zone_partial.

Lemma wor_z1 : zone (higher wor (qq 1 10 * qz 4)%num) (1, 1) [(0, 1); (1, 1); (1, 2); (2, 2)].
Proof.
  destruct wor_ok as (_ & B & C & _). replace [(0, 1); (1, 1); (1, 2); (2, 2)] with (same_label (all_cells (d0 (values wor)) (d1 (values wor))) (above (values wor) (Some (qq 1 10 * qz 4)%num)) (1, 1)) by vmr.
  apply label_zone; auto. exists (qz 4). split; [repeat split; cbn; lia|reflexivity].
Qed.
Lemma wor_highest : highest wor [(0, 1); (1, 1); (1, 2); (2, 2)] (qz 4).
Proof.
  split; [exists (1, 1); split; [right; now left|repeat split; cbn; lia]|]. intros c v I (_ & _ & _ & E). cbn in I.
  destruct I as [<-|[<-|[<-|[<-|[]]]]]; cbn in E; injection E as <-; discriminate.
Qed.
Example C151_example : shows_at wor (1, 1) (qz 4) /\ (qq 1 10 * qz 4 < qz 4)%num /\ zone (higher wor (qq 1 10 * qz 4)%num) (1, 1) [(0, 1); (1, 1); (1, 2); (2, 2)] /\ highest wor [(0, 1); (1, 1); (1, 2); (2, 2)] (qz 4).
Proof. split; [repeat split; cbn; lia|]. split; [reflexivity|]. split; [exact wor_z1|exact wor_highest]. Qed.
(** two clockwise vortices are counted as one, their counter-clockwise images are not *)
Definition two_up : sfield := on33 [[oz 0; oz 0; oz 0]; [oz 0; oz 4; oz 0]; [oz 0; oz 0; oz 4]].
Definition two_down : sfield := on33 [[oz 0; oz 0; oz 0]; [oz 0; oz (-4); oz 0]; [oz 0; oz 0; oz (-4)]].
Definition area_is (r : res (num * (onum * onum))) (a : num) : Prop := exists c, r = Ok (a, c).
Lemma area_ex r a : match r with Ok p => qeqb (fst p) a | Err _ => false end = true -> area_is r a.
Proof. destruct r as [[b c]|]; [|discriminate]. cbn. intro H. apply qeqb_eq in H. subst. now exists c. Qed.
Theorem C151_refuted : exists f up down x y eps, opposite up down /\ sg up = vg f /\ sf_wf up /\ sf_clean up /\ sf_wf down /\ sf_clean down /\ on_axis (ax (vg f)) x /\ on_axis (ay (vg f)) y /\
  regular_axis (ax (vg f)) (qz 2) /\ regular_axis (ay (vg f)) (qz 1) /\ (0 < eps < 1)%num /\
  (exists z, zone (higher up (eps * qz 4)%num) (1, 1) z /\ length z = 1) /\ nearest_node (ax (vg f)) x 1 /\ nearest_node (ay (vg f)) y 1 /\
  area_is (vortex_radius (fun _ => Ok up) (fun a => a) f x y eps) (qz 2) /\ area_is (vortex_radius (fun _ => Ok down) (fun a => a) f x y eps) (qz 4).
Proof.
  destruct wor_ok as (A & B & C & D & E & F & G). destruct mid_ok as (H & I & J & K).
  exists vf33, two_up, two_down, (qz 2), (qz 1), (qq 1 10). split.
  { split; [reflexivity|]. split; [reflexivity|]. intros i j Hi Hj. cbn in Hi, Hj. destruct i as [|[|[|i]]]; destruct j as [|[|[|j]]]; try lia; (split; [reflexivity|apply oeqb_eq; vmr]). }
  split; [reflexivity|]. split; [repeat split|]. split; [apply clean_b_ok; vmr|]. split; [repeat split|]. split; [apply clean_b_ok; vmr|]. split; [exact H|]. split; [exact I|]. split; [exact F|]. split; [exact G|].
  split; [split; reflexivity|]. split.
  { eexists. split; [apply label_zone; [repeat split|apply clean_b_ok; vmr|exists (qz 4); split; [repeat split; cbn; lia|reflexivity]]|vmr]. }
  split; [exact J|]. split; [exact K|]. split; apply area_ex; vmr.
Qed.
Print Assumptions C151_refuted.
(** a centre given on the flank of a vortex: the cells counted are those outside of the vortex *)
Definition steep : sfield := on33 [[oz 20; oz 0; oz 0]; [oz 1; oz 0; oz 0]; [oz 0; oz 0; oz 0]].
Theorem C151_flank_refuted : exists f vort x y eps, sg vort = vg f /\ sf_wf vort /\ sf_clean vort /\ on_axis (ax (vg f)) x /\ on_axis (ay (vg f)) y /\ (0 < eps < 1)%num /\
  (forall c, higher vort (eps * qz 20)%num c <-> c = (0, 0)) /\ shows_at vort (1, 0) (qz 1) /\ nearest_node (ax (vg f)) x 1 /\ nearest_node (ay (vg f)) y 0 /\
  area_is (vortex_radius (fun _ => Ok vort) (fun a => a) f x y eps) (qz 8 * qz 2 * qz 1)%num.
Proof.
  destruct mid_ok as (H & I & J & K). exists vf33, steep, (qz 2), (qz 0), (qq 1 10). split; [reflexivity|]. split; [repeat split|]. split; [apply clean_b_ok; vmr|]. split; [exact H|].
  split; [split; [discriminate|split; discriminate]|]. split; [split; reflexivity|]. split.
  { intros [i j]. split; [intros (v & (H1 & H2 & _ & E) & L); cbn in H1, H2, E; destruct i as [|[|[|i]]]; destruct j as [|[|[|j]]]; try lia; cbn in E; injection E as <-; try reflexivity; discriminate L|].
    intro E. injection E as -> ->. exists (qz 20). split; [repeat split; cbn; lia|reflexivity]. }
  split; [repeat split; cbn; lia|]. split; [exact J|]. split.
  { split; [cbn; lia|]. split; [intros k Q; cbn in Q; destruct k as [|[|[|k]]]; [discriminate|discriminate|discriminate|lia]|]. intros k Q E. cbn in Q. destruct k as [|[|[|k]]]; try lia; exfalso; apply (f_equal this) in E; vm_compute in E; discriminate. }
  apply area_ex; vmr.
Qed.
Print Assumptions C151_flank_refuted.
(** no vortex at all: the whole field is counted *)
Definition flat : sfield := on33 [[oz 0; oz 0; oz 0]; [oz 0; oz 0; oz 0]; [oz 0; oz 0; oz 0]].
Theorem C151_none_refuted : exists f vort x y eps, sg vort = vg f /\ sf_wf vort /\ sf_clean vort /\ on_axis (ax (vg f)) x /\ on_axis (ay (vg f)) y /\ (0 < eps < 1)%num /\
  (forall c v, shows_at vort c v -> v = qz 0) /\ area_is (vortex_radius (fun _ => Ok vort) (fun a => a) f x y eps) (qz 9 * qz 2 * qz 1)%num.
Proof.
  destruct mid_ok as (H & I & J & K). exists vf33, flat, (qz 2), (qz 1), (qq 1 10). split; [reflexivity|]. split; [repeat split|]. split; [apply clean_b_ok; vmr|]. split; [exact H|]. split; [exact I|]. split; [split; reflexivity|]. split.
  { intros [i j] v (H1 & H2 & _ & E). cbn in H1, H2, E. destruct i as [|[|[|i]]]; destruct j as [|[|[|j]]]; try lia; cbn in E; now injection E as <-. }
  apply area_ex; vmr.
Qed.
Print Assumptions C151_none_refuted.
(** the unit of the radius: with axes of the same unit it is not the unit of the axes *)
Theorem C151_unit_refuted : forall (root : num -> num) f u, (forall s, (0 <= s)%num -> (root s * root s = s)%num) -> ux (vg f) = uy (vg f) -> (0 < sc (ux (vg f)))%num -> radius_unit root f = Ok u -> (sc u * sc u = qz 2 * (sc (ux (vg f)) * sc (ux (vg f))))%num /\ u <> ux (vg f).
Proof.
  intros root f u R E P H. unfold radius_unit in H. rewrite <- E in H. rewrite TemporalProofs.dim_eqb_refl in H. cbn in H. injection H as <-. cbn [sc]. set (s := sc (ux (vg f))) in *.
  assert (Q : (0 < s * s)%num) by (now apply qmul_pos). assert (S2 : (root (s * s + s * s) * root (s * s + s * s) = qz 2 * (s * s))%num).
  { rewrite R by qlra. replace (qz 2) with (qz 1 + qz 1)%num by qc. qring. }
  split; [exact S2|]. intro K. assert (K2 : root (s * s + s * s)%num = s) by (apply (f_equal sc) in K; exact K). rewrite K2 in S2. replace (qz 2) with (qz 1 + qz 1)%num in S2 by qc. qlra.
Qed.
Print Assumptions C151_unit_refuted.

(** ** C152 *)
Theorem C152_centre_partial crit rad f vort x y eps dx dy i j v0 z1 m z :
  crit f = Ok vort -> sg vort = vg f -> sf_wf vort -> sf_clean vort -> grid_sorted (vg f) -> on_axis (ax (vg f)) x -> on_axis (ay (vg f)) y ->
  regular_axis (ax (vg f)) dx -> regular_axis (ay (vg f)) dy -> nearest_node (ax (vg f)) x i -> nearest_node (ay (vg f)) y j ->
  shows_at vort (i, j) v0 -> (eps * v0 < v0)%num -> zone (higher vort (eps * v0)%num) (i, j) z1 -> highest vort z1 m -> (eps * m < v0)%num -> zone (higher vort (eps * m)%num) (i, j) z ->
  exists r xc yc, vortex_radius crit rad f x y eps = Ok (r, (Some xc, Some yc)) /\ (0 < cell_sum vort (fun _ v => qabs v) z)%num /\
    (xc * cell_sum vort (fun _ v => qabs v) z = cell_sum vort (fun c v => qabs v * nths (ax (vg f)) (fst c)) z)%num /\
    (yc * cell_sum vort (fun _ v => qabs v) z = cell_sum vort (fun c v => qabs v * nths (ay (vg f)) (snd c)) z)%num /\
    (forall a b, (forall c, In c z -> (a <= nths (ax (vg f)) (fst c) <= b)%num) -> (a <= xc <= b)%num) /\
    (forall a b, (forall c, In c z -> (a <= nths (ay (vg f)) (snd c) <= b)%num) -> (a <= yc <= b)%num).
Proof. exact (radius_centre crit rad f vort x y eps dx dy i j v0 z1 m z). Qed.
Print Assumptions C152_centre_partial.

Example C152_example : zone (higher wor (qq 1 10 * qz 4)%num) (1, 1) [(0, 1); (1, 1); (1, 2); (2, 2)] /\ highest wor [(0, 1); (1, 1); (1, 2); (2, 2)] (qz 4) /\
  exists r xc yc, vortex_radius (fun _ => Ok wor) (fun a => a) vf33 (qz 2) (qz 1) (qq 1 10) = Ok (r, (Some xc, Some yc)) /\ xc = qq 11 5 /\ yc = qq 3 2.
Proof.
  split; [exact wor_z1|]. split; [exact wor_highest|].
  destruct (ok_ex (vortex_radius (fun _ => Ok wor) (fun a => a) vf33 (qz 2) (qz 1) (qq 1 10)) (fun r => (oeqb (fst (snd r)) (Some (qq 11 5)) && oeqb (snd (snd r)) (Some (qq 3 2)))%bool)) as ([r [xc yc]] & E & H); [vmr|].
  cbn in H. apply andb_true_iff in H. destruct H as [H1 H2]. apply oeqb_eq in H1, H2. subst. exists r, (qq 11 5), (qq 3 2). auto.
Qed.
(** on an irregular axis the centre is off *)
Definition vf_irr : vfield := vf_of [0; 1; 10]%Z ay3 ones33 ones33 [].
Definition one_right : sfield := sf_of [0; 1; 10]%Z ay3 [[oz 0; oz 0; oz 0]; [oz 0; oz 0; oz 0]; [oz 0; oz 3; oz 0]] [].
Theorem C152_refuted : exists f vort x y eps r xc yc, sg vort = vg f /\ sf_wf vort /\ sf_clean vort /\ grid_sorted (vg f) /\ on_axis (ax (vg f)) x /\ on_axis (ay (vg f)) y /\ (0 < eps < 1)%num /\
  (forall c, higher vort (qz 0) c <-> c = (2, 1)) /\ nth 2 (ax (vg f)) (qz 0) = qz 10 /\ vortex_radius (fun _ => Ok vort) (fun a => a) f x y eps = Ok (r, (xc, yc)) /\ xc = Some (qz 2).
Proof.
  destruct (ok_ex (vortex_radius (fun _ => Ok one_right) (fun a => a) vf_irr (qz 10) (qz 1) (qq 1 10)) (fun r => oeqb (fst (snd r)) (Some (qz 2)))) as ([r [xc yc]] & E & H); [vmr|].
  cbn in H. apply oeqb_eq in H. exists vf_irr, one_right, (qz 10), (qz 1), (qq 1 10), r, xc, yc. split; [reflexivity|]. split; [repeat split|]. split; [apply clean_b_ok; vmr|]. split; [split; incr|].
  split; [split; [discriminate|split; discriminate]|]. split; [split; [discriminate|split; discriminate]|]. split; [split; reflexivity|]. split.
  { intros [i j]. split; [intros (v & (H1 & H2 & _ & Q) & L); cbn in H1, H2, Q; destruct i as [|[|[|i]]]; destruct j as [|[|[|j]]]; try lia; cbn in Q; injection Q as <-; try reflexivity; discriminate L|].
    intro Q. injection Q as -> ->. exists (qz 3). split; [repeat split; cbn; lia|reflexivity]. }
  split; [reflexivity|]. split; [exact E|exact H].
Qed.
Print Assumptions C152_refuted.

(** ** C153 *)
Theorem C153_weights_partial nx ny :
  2 <= nx -> 2 <= ny -> exists wx wy, weights nx wx /\ weights ny wy /\
  forall size prop f s p x y lim dx dy i j v0 z1 m, size f = Ok s -> prop f = Ok p -> length (ax (vg f)) = nx -> length (ay (vg f)) = ny ->
    sg s = vg f -> sg p = vg f -> vf_wf f -> sf_wf s -> sf_clean s -> sf_wf p -> sf_clean p -> grid_sorted (vg f) -> on_axis (ax (vg f)) x -> on_axis (ay (vg f)) y ->
    regular_axis (ax (vg f)) dx -> regular_axis (ay (vg f)) dy -> nearest_node (ax (vg f)) x i -> nearest_node (ay (vg f)) y j ->
    ~ still_at f (i, j) -> shows_at s (i, j) v0 -> (qabs v0 * lim < qabs v0)%num -> zone (stronger s (qabs v0 * lim)%num) (i, j) z1 -> peak s z1 m -> (m * lim < qabs v0)%num ->
    (forall c, stronger s (m * lim)%num c -> exists v, shows_at p c v) ->
    exists z, zone (stronger s (m * lim)%num) (i, j) z /\
      vortex_property size prop f x y lim = Ok (Some (dx * dy * cell_sum p (fun c v => wx (fst c) * wy (snd c) * v) z)%num, unit_mul (unit_mul (uv p) (ux (vg f))) (uy (vg f))).
Proof. exact (property_lemma nx ny). Qed.
Print Assumptions C153_weights_partial.

Theorem C153_uniform_partial size prop f s p x y lim dx dy i j v0 z1 m v :
  size f = Ok s -> prop f = Ok p ->
  sg s = vg f -> sg p = vg f -> vf_wf f -> sf_wf s -> sf_clean s -> sf_wf p -> sf_clean p -> grid_sorted (vg f) -> on_axis (ax (vg f)) x -> on_axis (ay (vg f)) y ->
  regular_axis (ax (vg f)) dx -> regular_axis (ay (vg f)) dy -> nearest_node (ax (vg f)) x i -> nearest_node (ay (vg f)) y j ->
  ~ still_at f (i, j) -> shows_at s (i, j) v0 -> (qabs v0 * lim < qabs v0)%num -> zone (stronger s (qabs v0 * lim)%num) (i, j) z1 -> peak s z1 m -> (m * lim < qabs v0)%num ->
  (forall c, fst c < length (ax (vg f)) -> snd c < length (ay (vg f)) -> shows_at p c v) ->
  (forall c, fst c < length (ax (vg f)) -> snd c < length (ay (vg f)) -> joined (stronger s (m * lim)%num) (i, j) c) ->
  vortex_property size prop f x y lim = Ok (Some (v * (qn (length (ax (vg f)) - 1) * dx) * (qn (length (ay (vg f)) - 1) * dy))%num, unit_mul (unit_mul (uv p) (ux (vg f))) (uy (vg f))).
Proof. exact (property_uniform size prop f s p x y lim dx dy i j v0 z1 m v). Qed.
Print Assumptions C153_uniform_partial.

Theorem C153_still_partial size prop f s p x y lim i j :
  size f = Ok s -> prop f = Ok p -> vf_wf f -> grid_sorted (vg f) -> on_axis (ax (vg f)) x -> on_axis (ay (vg f)) y ->
  nearest_node (ax (vg f)) x i -> nearest_node (ay (vg f)) y j -> still_at f (i, j) -> vortex_property size prop f x y lim = Err ValueErr.
Proof. exact (property_still size prop f s p x y lim i j). Qed.
Print Assumptions C153_still_partial.

Theorem C153_absent_partial size prop f s p x y lim i j :
  size f = Ok s -> prop f = Ok p -> sg s = vg f -> sg p = vg f -> vf_wf f -> sf_wf s -> sf_clean s -> grid_sorted (vg f) -> on_axis (ax (vg f)) x -> on_axis (ay (vg f)) y ->
  nearest_node (ax (vg f)) x i -> nearest_node (ay (vg f)) y j -> ~ still_at f (i, j) -> (forall v, shows_at s (i, j) v -> (qabs v <= qabs v * lim)%num) ->
  vortex_property size prop f x y lim = Ok (Some 0%num, unit_mul (unit_mul (uv p) (ux (vg f))) (uy (vg f))).
Proof. exact (property_absent size prop f s p x y lim i j). Qed.
Print Assumptions C153_absent_partial.

(** a uniform criterion over a field: a case of all the hypotheses *)
Definition sevens : sfield := on33 [[oz 7; oz 7; oz 7]; [oz 7; oz 7; oz 7]; [oz 7; oz 7; oz 7]].
Definition peaked : sfield := on33 [[oz 1; oz (-1); oz 1]; [oz 1; oz 2; oz 1]; [oz 1; oz 1; oz 1]].
Example C153_example : ~ still_at vf33 (1, 1) /\ shows_at peaked (1, 1) (qz 2) /\ (qabs (qz 2) * qq 1 10 < qabs (qz 2))%num /\
  (exists z1, zone (stronger peaked (qabs (qz 2) * qq 1 10)%num) (1, 1) z1 /\ length z1 = 9 /\ peak peaked z1 (qz 2)) /\ (qz 2 * qq 1 10 < qabs (qz 2))%num /\
  (forall c, fst c < length (ax (vg vf33)) -> snd c < length (ay (vg vf33)) -> shows_at sevens c (qz 7)) /\
  (forall c, fst c < length (ax (vg vf33)) -> snd c < length (ay (vg vf33)) -> joined (stronger peaked (qz 2 * qq 1 10)%num) (1, 1) c) /\
  vortex_property (fun _ => Ok peaked) (fun _ => Ok sevens) vf33 (qz 2) (qz 1) (qq 1 10) = Ok (Some (qz 7 * (qn 2 * qz 2) * (qn 2 * qz 1))%num, unit_mul (unit_mul metre metre) metre).
Proof.
  assert (W : sf_wf peaked) by (repeat split). assert (C : sf_clean peaked) by (apply clean_b_ok; vmr).
  assert (S0 : shows_at peaked (1, 1) (qz 2)) by (repeat split; cbn; lia).
  assert (Z : zone (stronger peaked (qabs (qz 2) * qq 1 10)%num) (1, 1) [(0, 0); (0, 1); (0, 2); (1, 0); (1, 1); (1, 2); (2, 0); (2, 1); (2, 2)]).
  { replace [(0, 0); (0, 1); (0, 2); (1, 0); (1, 1); (1, 2); (2, 0); (2, 1); (2, 2)] with (component (all_cells (d0 (raw peaked)) (d1 (raw peaked))) (above (amap oabs (values peaked)) (Some (qabs (qz 2) * qq 1 10)%num)) (1, 1)) by vmr.
    apply strong_zone; auto. exists (qz 2). split; [exact S0|reflexivity]. }
  assert (PK : peak peaked [(0, 0); (0, 1); (0, 2); (1, 0); (1, 1); (1, 2); (2, 0); (2, 1); (2, 2)] (qz 2)).
  { split; [exists (1, 1), (qz 2); split; [do 4 right; now left|split; [exact S0|qc]]|]. intros c v I (_ & _ & _ & E). cbn in I. repeat (destruct I as [<-|I]; [cbn in E; injection E as <-; discriminate|]). contradiction. }
  assert (US : forall c, fst c < length (ax (vg vf33)) -> snd c < length (ay (vg vf33)) -> shows_at sevens c (qz 7)).
  { intros [i j] H1 H2. cbn in H1, H2. destruct i as [|[|[|i]]]; destruct j as [|[|[|j]]]; try lia; repeat split; cbn; lia. }
  assert (JJ : forall c, fst c < length (ax (vg vf33)) -> snd c < length (ay (vg vf33)) -> joined (stronger peaked (qz 2 * qq 1 10)%num) (1, 1) c).
  { replace (qz 2 * qq 1 10)%num with (qabs (qz 2) * qq 1 10)%num by qc. intros [i j] H1 H2. apply Z. cbn in H1, H2. destruct i as [|[|[|i]]]; destruct j as [|[|[|j]]]; try lia; cbn; tauto. }
  assert (NS : ~ still_at vf33 (1, 1)) by (intros (_ & Q & _); cbn in Q; apply (f_equal (fun o => match o with Some v => this v | None => 0%Q end)) in Q; vm_compute in Q; discriminate).
  split; [exact NS|]. split; [exact S0|]. split; [reflexivity|]. split; [eexists; split; [exact Z|]; split; [reflexivity|exact PK]|]. split; [reflexivity|]. split; [exact US|]. split; [exact JJ|].
  destruct wor_ok as (A & _ & _ & D & E & F & G). destruct mid_ok as (H & I & J & K).
  apply (property_uniform (fun _ => Ok peaked) (fun _ => Ok sevens) vf33 peaked sevens (qz 2) (qz 1) (qq 1 10) (qz 2) (qz 1) 1 1 (qz 2) [(0, 0); (0, 1); (0, 2); (1, 0); (1, 1); (1, 2); (2, 0); (2, 1); (2, 2)] (qz 2) (qz 7)).
  - reflexivity. - reflexivity. - reflexivity. - reflexivity. - exact E. - exact W. - exact C. - repeat split. - apply clean_b_ok; vmr. - exact D. - exact H. - exact I. - exact F. - exact G. - exact J. - exact K.
  - exact NS. - exact S0. - reflexivity. - exact Z. - exact PK. - reflexivity. - exact US. - exact JJ.
Qed.
(** the same vortex one cell further does not have the same integral *)
Definition vf53 : vfield := vf_of [0; 1; 2; 3; 4]%Z ay3 (repeat [oz 1; oz 1; oz 1] 5) (repeat [oz 1; oz 1; oz 1] 5) [].
Definition on53 (rows : list (list onum)) : sfield := sf_of [0; 1; 2; 3; 4]%Z ay3 rows [].
Definition row0 : list onum := [oz 0; oz 0; oz 0].
Definition row1 : list onum := [oz 0; oz 5; oz 0].
Definition vort_a : sfield := on53 [row0; row1; row0; row0; row0].
Definition vort_b : sfield := on53 [row0; row0; row1; row0; row0].
Definition sum_is (r : res (onum * unit_t)) (a : num) : Prop := exists u, r = Ok (Some a, u).
Lemma sum_ex r a : match r with Ok p => oeqb (fst p) (Some a) | Err _ => false end = true -> sum_is r a.
Proof. destruct r as [[b c]|]; [|discriminate]. cbn. intro H. apply oeqb_eq in H. subst. now exists c. Qed.
Example C153_absent_example : ~ still_at vf33 (1, 1) /\ (forall v, shows_at peaked (1, 1) v -> (qabs v <= qabs v * qz 1)%num).
Proof. split; [apply C153_example|]. intros v _. replace (qabs v * qz 1)%num with (qabs v) by (change (qz 1) with 1%num; qring). apply qle_refl. Qed.
Theorem C153_refuted : exists f va vb x y a b, sg va = vg f /\ sg vb = vg f /\ regular_axis (ax (vg f)) (qz 1) /\ regular_axis (ay (vg f)) (qz 1) /\
  (forall i j v, shows_at va (i, j) v /\ S i < length (ax (vg f)) -> shows_at vb (S i, j) v) /\ (forall i j v, shows_at vb (S i, j) v -> shows_at va (i, j) v) /\
  (forall j v, shows_at vb (0, j) v -> v = qz 0) /\ (forall j v, shows_at va (4, j) v -> v = qz 0) /\
  sum_is (vortex_property (fun _ => Ok va) (fun _ => Ok va) f x y (qq 1 10)) a /\ sum_is (vortex_property (fun _ => Ok vb) (fun _ => Ok vb) f (x + 1)%num y (qq 1 10)) b /\ a <> b.
Proof.
  exists vf53, vort_a, vort_b, (qz 1), (qz 1), (qq 80 9), (qq 40 9). split; [reflexivity|]. split; [reflexivity|].
  split; [split; [reflexivity|]; split; [cbn; lia|]; intros i H; cbn in H; destruct i as [|[|[|[|[|i]]]]]; [qc|qc|qc|qc|qc|lia]|].
  split; [split; [reflexivity|]; split; [cbn; lia|]; intros i H; cbn in H; destruct i as [|[|[|i]]]; [qc|qc|qc|lia]|].
  split; [|split; [|split; [|split; [|split; [|split]]]]].
  - intros i j v ((H1 & H2 & _ & E) & L). cbn in H1, H2, L, E. destruct i as [|[|[|[|[|i]]]]]; try lia; destruct j as [|[|[|j]]]; try lia; (split; [cbn; lia|split; [cbn; lia|split; [reflexivity|exact E]]]).
  - intros i j v (H1 & H2 & _ & E). cbn in H1, H2, E. destruct i as [|[|[|[|[|i]]]]]; try lia; destruct j as [|[|[|j]]]; try lia; (split; [cbn; lia|split; [cbn; lia|split; [reflexivity|exact E]]]).
  - intros j v (_ & H2 & _ & E). cbn in H2, E. destruct j as [|[|[|j]]]; try lia; cbn in E; now injection E as <-.
  - intros j v (_ & H2 & _ & E). cbn in H2, E. destruct j as [|[|[|j]]]; try lia; cbn in E; now injection E as <-.
  - apply sum_ex. vmr.
  - apply sum_ex. vmr.
  - intro Q. apply (f_equal this) in Q. vm_compute in Q. discriminate.
Qed.
Print Assumptions C153_refuted.

(** ** C154 *)
Theorem C154_radius crit rad t p eps rs :
  NoDup (tft t) -> length (tft t) = length (tff t) -> length (pv p) = length (xy p) -> length rs = length (xy p) ->
  (forall k x y d r, nth_error (xy p) k = Some (x, y) -> nth_error (pv p) k = Some d -> nth_error rs k = Some r -> exists f c, tracked_frame t d f /\ vortex_radius crit rad f x y eps = Ok (r, c)) ->
  exists q, radius_evolution crit rad t p eps = Ok q /\ prof_ok q /\ pux q = tfu t /\ puy q = ux (tfg t) /\
    Permutation (samples q) (map (fun s => (fst s, (if qeqb (snd s) 0 then None else Some (snd s)), qeqb (snd s) 0)) (combine (pv p) rs)).
Proof. exact (radius_evolution_lemma crit rad t p eps rs). Qed.
Print Assumptions C154_radius.

Theorem C154_missing crit rad t p eps k x y d :
  nth_error (xy p) k = Some (x, y) -> nth_error (pv p) k = Some d -> (forall f, ~ tracked_frame t d f) ->
  exists e, radius_evolution crit rad t p eps = Err e.
Proof. exact (radius_evolution_missing crit rad t p eps k x y d). Qed.
Print Assumptions C154_missing.

Theorem C154_property size prop t p lim q :
  NoDup (tft t) -> length (tft t) = length (tff t) -> NoDup (pv p) -> length (pv p) = length (xy p) ->
  property_evolution size prop t p lim = Ok q ->
  exists l, prof_ok q /\ pux q = tfu t /\ Permutation (samples q) (map (fun s => (fst s, snd s, isnan (snd s))) l) /\ l <> [] /\ NoDup (map fst l) /\
    forall x v, In (x, v) l <-> exists f pt u, tracked_frame t x f /\ tracked (xy p) (pv p) x pt /\ vortex_property size prop f (fst pt) (snd pt) lim = Ok (v, u).
Proof. exact (property_evolution_lemma size prop t p lim q). Qed.
Print Assumptions C154_property.

Theorem C154_disjoint size prop t p lim :
  (forall x f pt, tracked_frame t x f -> ~ tracked (xy p) (pv p) x pt) -> property_evolution size prop t p lim = Err UnboundErr.
Proof. exact (property_evolution_disjoint size prop t p lim). Qed.
Print Assumptions C154_disjoint.

Definition tvf33 : tfield vfield := mktf (vg vf33) [vf33; vf33; vf33] true (zs [0; 1; 2]%Z) second.
Definition track : points := mkpts [(qz 2, qz 1); (qz 4, qz 2)] [qz 1; qz 2] metre metre second.
Example C154_example : NoDup (tft tvf33) /\ NoDup (pv track) /\ (exists q, property_evolution (fun _ => Ok wor) (fun _ => Ok sevens) tvf33 track (qq 1 10) = Ok q /\ px q = zs [1; 2]%Z) /\
  (exists q, radius_evolution (fun _ => Ok wor) (fun a => a) tvf33 track (qq 1 10) = Ok q /\ px q = zs [1; 2]%Z).
Proof.
  assert (N : forall l : list Z, NoDup l -> NoDup (zs l)) by (intros l H; unfold zs; apply FinFun.Injective_map_NoDup; [intros a b Q; now apply qz_inj|exact H]).
  split; [apply N; repeat constructor; cbn; intuition discriminate|]. split; [apply (N [1; 2]%Z); repeat constructor; cbn; intuition discriminate|]. split.
  - destruct (ok_ex (property_evolution (fun _ => Ok wor) (fun _ => Ok sevens) tvf33 track (qq 1 10)) (fun q => oseqb (map Some (px q)) (map Some (zs [1; 2]%Z)))) as (q & E & H); [vmr|]. exists q. split; [exact E|]. apply oseqb_eq in H. 
    assert (I : forall a b : list num, map Some a = map Some b -> a = b) by (induction a as [|u a IH]; intros [|w b] Q; cbn in Q; try discriminate; [reflexivity|]; injection Q as -> Q; f_equal; auto). now apply I.
  - destruct (ok_ex (radius_evolution (fun _ => Ok wor) (fun a => a) tvf33 track (qq 1 10)) (fun q => oseqb (map Some (px q)) (map Some (zs [1; 2]%Z)))) as (q & E & H); [vmr|]. exists q. split; [exact E|]. apply oseqb_eq in H. 
    assert (I : forall a b : list num, map Some a = map Some b -> a = b) by (induction a as [|u a IH]; intros [|w b] Q; cbn in Q; try discriminate; [reflexivity|]; injection Q as -> Q; f_equal; auto). now apply I.
Qed.
