(** * PropPts3: points ordered on a line (C257-C259), evolution along a trajectory (C260, C261), stream lines from oriented points (C262, C263). *)
From Coq Require Import Relations.
From Verif Require Import Num Res ListLib SortLib Arr FieldModel ScalarFieldModel FieldSpec ProfileModel ProfileSpec PointsModel PointsSpec TemporalModel Concrete Pts3Model Pts3Spec Pts3Proofs Pts3Proofs2.
#[local] Ltac vmr := vm_compute; reflexivity.

(** C257: when all points are joined by the links between nearest neighbours, order_on_line gives the same points, along
    the shortest of the traversals, and the units are kept. *)
Theorem C257_order p nb paths inplace :
  3 <= length (xy p) -> two_nearest p nb -> traversals p nb paths -> connected p nb ->
  exists path r, order_on_line paths p inplace = Ok (if inplace then r else p, r) /\
    In path paths /\ (forall q, In q paths -> line_cost (xy r) <= line_cost (along p q))%num /\
    Permutation path (seq 0 (length (xy p))) /\ xy r = along p path /\ Permutation (xy r) (xy p) /\
    ptx r = ptx p /\ pty r = pty p /\ ptv r = ptv p.
Proof.
  intros L _ T C. destruct (order_connected p nb paths inplace L T C) as [q [r [H1 [H2 [H3 [H4 [H5 [H6 [_ H7]]]]]]]]].
  exists q, r. destruct H7 as [H7 [H8 H9]]. repeat (split; [assumption|]). assumption.
Qed.
Theorem C257_few paths p inplace : lt (length (xy p)) 3 -> order_on_line paths p inplace = Err ValueErr.
Proof. apply order_few. Qed.
Example C257_example : two_nearest three three_nb /\ traversals three three_nb three_paths /\ connected three three_nb /\
  exists r, order_on_line three_paths three false = Ok (three, r) /\ map fst (xy r) = [qz 0; qz 1; qz 2] /\ map fst (xy three) = [qz 1; qz 0; qz 2].
Proof.
  split; [exact three_near|]. split; [exact three_trav|]. split; [exact three_con|].
  destruct three_run as [r [H1 [H2 _]]]. exists r. repeat split; assumption.
Qed.

(** C258: each point keeps its value.  Refuted: the values are not reordered. *)
Theorem C258_values_refuted : exists p nb paths r, two_nearest p nb /\ traversals p nb paths /\ connected p nb /\ 3 <= length (xy p) /\
  length (pv p) = length (xy p) /\ order_on_line paths p false = Ok (p, r) /\ ~ Permutation (with_values r) (with_values p).
Proof. exact values_mixed. Qed.
(** what remains: points without values have none afterwards, and the list of the values is the same *)
Theorem C258_values_partial p nb paths inplace :
  3 <= length (xy p) -> two_nearest p nb -> traversals p nb paths -> connected p nb -> pts_ok p ->
  exists s r, order_on_line paths p inplace = Ok (s, r) /\ pv r = pv p.
Proof.
  intros L _ T C O. destruct (order_connected p nb paths inplace L T C) as [q [r [H1 [H2 [H3 [H4 [H5 [H6 [H8 H7]]]]]]]]].
  exists (if inplace then r else p), r. split; [exact H1|exact (H8 O)].
Qed.
Example C258_example : pts_ok three /\ pv three <> [].
Proof. split; [right; reflexivity|discriminate]. Qed.

(** C259: no point is lost.  Refuted: two groups of three points, far from each other; half of the points and all the values are
    lost, whatever the neighbours and traversals chosen. *)
Theorem C259_all_points_refuted : exists p, length (xy p) = 6 /\ length (pv p) = 6 /\
  (exists nb paths, two_nearest p nb /\ traversals p nb paths) /\
  forall nb paths, two_nearest p nb -> traversals p nb paths ->
    exists r, order_on_line paths p false = Ok (p, r) /\ length (xy r) <= 3 /\ pv r = [].
Proof.
  exists groups. split; [reflexivity|]. split; [reflexivity|]. split; [exists groups_nb, groups_paths; split; [exact groups_near|exact groups_trav]|].
  exact groups_lose.
Qed.
(** in all cases the points returned are points of the set, each at most once *)
Theorem C259_points_partial p nb paths inplace : 3 <= length (xy p) -> two_nearest p nb -> traversals p nb paths ->
  exists path s r, order_on_line paths p inplace = Ok (s, r) /\ NoDup path /\ (forall i, In i path -> lt i (length (xy p))) /\ xy r = along p path.
Proof.
  intros L _ T. destruct (order_ok p nb paths inplace L T) as [q [I [_ E]]]. exists q. eexists _, _. split; [exact E|].
  destruct T as [Lp T]. apply In_nth_error in I. destruct I as [i Hi].
  assert (Li : lt i (length (xy p))) by (rewrite <- Lp; apply nth_error_Some; congruence).
  destruct (T i Li) as [q' [E' [_ [N J]]]]. assert (q' = q) as -> by congruence.
  split; [exact N|]. split; [|reflexivity]. intros j Hj. apply J in Hj. exact (joined_lt _ _ _ _ Li Hj).
Qed.

(** C260: get_evolution_on_tsf gives, for each point, the value at its place in the field of its time, against the wanted axis, sorted. *)
Theorem C260_evolution ci p t a ys f0 :
  times_ok t -> xy p <> [] -> length (pv p) = length (xy p) -> a <> Some PtOther ->
  nth_error (tff t) 0 = Some f0 -> Forall2 (value_on_path ci t) (with_values p) ys ->
  exists r, evolution_on_tsf ci p t a = Ok r /\ prof_ok r /\
    Permutation (samples r) (map (fun z => (abscissa a (fst z), snd z, isnan (snd z))) (combine (with_values p) ys)) /\
    pux r = abscissa_unit a p /\ puy r = uv f0.
Proof. apply evolution_ok. Qed.
Definition ex_tsf : tfield sfield :=
  mktf (sg ex_sf) [ex_sf; sf_of [0; 1; 3]%Z [10; 20]%Z [[oz 7; oz 8]; [oz 9; oz 4]; [oz 5; oz 6]] [[false; false]; [false; false]; [false; false]]]
       true [qz 1; qz 2] second.
Definition ex_traj : points := mkpts [(qz 0, qz 20); (qz 1, qz 10); (qz 1, qz 20)] [qz 2; qz 2; qz 1] metre metre second.
Definition no_cell (_ : sfield) (_ _ : nat) (_ _ : num) : onum := None.
Example C260_example : Forall2 (value_on_path no_cell ex_tsf) (with_values ex_traj) [oz 8; oz 9; oz 4] /\
  exists r, evolution_on_tsf no_cell ex_traj ex_tsf None = Ok r /\ map sx (samples r) = [qz 1; qz 2; qz 2].
Proof.
  split.
  - unfold with_values, ex_traj. cbn [xy pv combine].
    apply Forall2_cons; [|apply Forall2_cons; [|apply Forall2_cons; [|apply Forall2_nil]]].
    1, 2: exists (nth 1 (tff ex_tsf) ex_sf); (split; [exists 1|vmr]; split; [reflexivity|]; split; [reflexivity|]; intros j Hj; replace j with 0 by lia; discriminate).
    exists ex_sf. split; [exists 0|vmr]. split; [reflexivity|]. split; [reflexivity|]. intros j Hj. lia.
  - vm_compute. eexists. split; reflexivity.
Qed.

(** C261: a point whose time is not in the collection is refused (IndexError), as are points without values *)
Theorem C261_missing ci p t a k q time :
  times_ok t -> length (pv p) = length (xy p) -> a <> Some PtOther ->
  nth_error (with_values p) k = Some (q, time) -> ~ In time (tft t) ->
  (forall j z, lt j k -> nth_error (with_values p) j = Some z -> exists y, value_on_path ci t z y) ->
  evolution_on_tsf ci p t a = Err IndexErr.
Proof. apply evolution_missing. Qed.
Theorem C261_no_values ci p t a : xy p <> [] -> pv p = [] ->
  evolution_on_tsf ci p t a = Err (match a with Some PtX | Some PtY => IndexErr | _ => ValueErr end).
Proof. apply evolution_no_values. Qed.
Example C261_example : evolution_on_tsf no_cell (mkpts [(qz 0, qz 20); (qz 1, qz 10)] [qz 2; qz 3] metre metre second) ex_tsf (Some PtX) = Err IndexErr.
Proof. vmr. Qed.

(** C262: in a field with square cells, the lines returned are those issued from the non null directions, upstream or downstream
    according to the flag of the direction, each after its point and without times. *)
Theorem C262_lines lines ax ay c o r n :
  cell_sizes ax ay c c -> rect_ori o n -> xy (opt o) <> [] ->
  match r with RBool _ => True | RTuple l => length l = n end ->
  (forall p q b s, In s (lines_of (lines p q b)) -> length (pv s) = length (xy s)) ->
  exists ls, from_orientations lines ax ay o r = Ok ls /\ forall L, In L ls <-> issued lines c c o r L.
Proof. apply from_spec. Qed.
Theorem C262_refused lines ax ay o r n : rect_ori o n ->
  (ori o = [] -> from_orientations lines ax ay o r = Err IndexErr) /\
  (forall l, ori o <> [] -> r = RTuple l -> length l <> n -> from_orientations lines ax ay o r = Err ValueErr).
Proof. apply from_refuses. Qed.
Example C262_example : rect_ori ex_op 2 /\ exists ls, from_orientations echo ax1 ax1 ex_op (RTuple [true; false]) = Ok ls /\
  map (fun L => map snd (xy L)) ls = [[qz 5; qz 4]; [qz 5; qz 6]].
Proof. split; [split; [reflexivity|repeat constructor]|]. vm_compute. eexists. split; reflexivity. Qed.

(** C263: the two places around a point are at a quarter of a cell along each axis.  Refuted: the step of x is used for y. *)
Theorem C263_quarter_refuted : exists lines ax ay sx sy o r n ls,
  cell_sizes ax ay sx sy /\ rect_ori o n /\ xy (opt o) <> [] /\
  (forall p q b s, In s (lines_of (lines p q b)) -> length (pv s) = length (xy s)) /\
  from_orientations lines ax ay o r = Ok ls /\ exists L, In L ls /\ ~ issued lines sx sy o r L.
Proof. exact not_quarter. Qed.

Print Assumptions C257_order.
Print Assumptions C257_few.
Print Assumptions C258_values_refuted.
Print Assumptions C258_values_partial.
Print Assumptions C259_all_points_refuted.
Print Assumptions C259_points_partial.
Print Assumptions C260_evolution.
Print Assumptions C261_missing.
Print Assumptions C261_no_values.
Print Assumptions C262_lines.
Print Assumptions C262_refused.
Print Assumptions C263_quarter_refuted.
