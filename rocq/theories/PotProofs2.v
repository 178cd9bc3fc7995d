(** * PotProofs2: the paths of the solids, the positions on lines, the pressure. *)
From Coq Require Import Reals List Bool Lra Lia Psatz.
From Verif Require Import Res PotModel PotSpec PotProofs.
Import ListNotations.
#[local] Open Scope R_scope.

(** ** points along a segment *)
Lemma pt_ext : forall (a b : pt), fst a = fst b -> snd a = snd b -> a = b.
Proof. intros [] []; cbn; intros -> ->; reflexivity. Qed.
Lemma along_start : forall a b, along a b 0 = a.
Proof. intros. apply pt_ext; unfold along; cbn [fst snd]; ring. Qed.
Lemma along_end : forall a b, along a b 1 = b.
Proof. intros. apply pt_ext; unfold along; cbn [fst snd]; ring. Qed.
Lemma along_dist : forall a b s t, dist2 (along a b s) (along a b t) = (s - t) ^ 2 * dist2 a b.
Proof. intros. unfold dist2, along. cbn [fst snd]. ring. Qed.
Lemma along_inj : forall a b s t, a <> b -> s <> t -> along a b s <> along a b t.
Proof.
  intros a b s t N D E. pose proof (along_dist a b s t) as H. rewrite E in H. pose proof (dist2_pos a b N) as P.
  assert (Q : 0 < (s - t) ^ 2) by (apply pow2_gt_0; lra).
  assert (Z : dist2 (along a b t) (along a b t) = 0) by (unfold dist2; ring). nra.
Qed.
Lemma INR_gt0 : forall n, (1 <= n)%nat -> 0 < INR n.
Proof. intros. apply lt_0_INR. lia. Qed.
Lemma part_step : forall N k, (1 <= N)%nat -> INR (S k) / INR N - INR k / INR N = / INR N.
Proof. intros N k H. pose proof (INR_gt0 N H). rewrite S_INR. field. lra. Qed.

Lemma last_default : forall (z : list pt) y d d', last (y :: z) d = last (y :: z) d'.
Proof. intros z. induction z as [|w z IH]; intros y d d'; [reflexivity|]. change (last (w :: z) d = last (w :: z) d'). apply IH. Qed.
(** ** cutting *)
Lemma cut_alongs : forall a b n, (1 <= n)%nat -> cut a b n = map (fun k => along a b (INR k / INR n)) (seq 0 n).
Proof.
  intros a b n H. pose proof (INR_gt0 n H). unfold cut. apply map_ext. intro k. apply pt_ext; unfold along; cbn [fst snd]; field; lra.
Qed.
Lemma one_segment_cut : forall rnd delta a b s, one_segment rnd delta a b = Ok s -> exists n, (1 <= n)%nat /\ s = map (fun k => along a b (INR k / INR n)) (seq 0 n).
Proof.
  intros rnd delta a b s E. unfold one_segment in E. destruct (Req_EM_T delta 0).
  - destruct (Req_EM_T (seg_len a b) 0); discriminate E.
  - cbv zeta in E. destruct (Nat.leb (rnd (seg_len a b / delta)) 1) eqn:L; injection E as <-.
    + exists 1%nat. split; [lia|]. cbn [seq map]. cbn [INR]. unfold Rdiv. rewrite Rmult_0_l, along_start. reflexivity.
    + apply Nat.leb_gt in L. exists (rnd (seg_len a b / delta)). split; [lia|]. apply cut_alongs. lia.
Qed.
Lemma segments_cut : forall rnd delta l p s, segments rnd delta (p :: l) = Ok s -> cut_in_parts (p :: l) (s ++ [last (p :: l) p]).
Proof.
  intros rnd delta l. induction l as [|b l IH]; intros p s E.
  - cbn in E. injection E as <-. cbn. constructor.
  - cbn [segments] in E. destruct (one_segment rnd delta p b) as [x|e] eqn:O; cbn [bind] in E; [|discriminate E].
    destruct (segments rnd delta (b :: l)) as [t|e] eqn:T; cbn [segments] in T; rewrite T in E; cbn [bind] in E; [|discriminate E].
    injection E as <-. destruct (one_segment_cut _ _ _ _ _ O) as [n [N ->]]. rewrite <- app_assoc. 
    replace (last (p :: b :: l) p) with (last (b :: l) b).
    + constructor; [exact N|]. apply IH. exact T.
    + change (last (p :: b :: l) p) with (last (b :: l) p). apply last_default.
Qed.
Lemma refine_closed : forall rnd l r m, closed l -> refine rnd l r = Ok m -> cut_in_parts l m.
Proof.
  intros rnd l r m C E. unfold refine in E. destruct l as [|p l]; [discriminate E|].
  destruct (seg_lens (p :: l)) as [|d ds]; [discriminate E|].
  destruct (segments rnd (min_of d ds / INR r) (p :: l)) as [s|e] eqn:S; cbn [bind] in E; [|discriminate E]. injection E as <-.
  unfold closed in C. cbn [first_point last_point] in C. injection C as C. rewrite C at 2. apply segments_cut with (1 := S).
Qed.
Lemma cut_head : forall l m, cut_in_parts l m -> exists p t u, l = p :: t /\ m = p :: u.
Proof.
  intros l m H. destruct H as [p|a b l m n N H].
  - exists p, [], []. split; reflexivity.
  - destruct n as [|n]; [lia|]. exists a, (b :: l). cbn [seq map app]. eexists. split; [reflexivity|]. f_equal.
    cbn [INR]. unfold Rdiv. rewrite Rmult_0_l. apply along_start.
Qed.
Lemma cut_ends : forall l m, cut_in_parts l m -> first_point m = first_point l /\ last_point m = last_point l.
Proof.
  intros l m H. induction H as [p|a b l m n N H [I1 I2]]; [split; reflexivity|].
  destruct (cut_head _ _ H) as [p [t [u [E1 E2]]]]. injection E1 as <- <-. subst m. split.
  - destruct n as [|n]; [lia|]. cbn [seq map app first_point]. cbn [INR]. unfold Rdiv. rewrite Rmult_0_l, along_start. reflexivity.
  - assert (L : forall (x : list pt) y z d, last (x ++ y :: z) d = last (y :: z) d).
    { intros x y z d. induction x as [|w x IH]; [reflexivity|]. cbn [app]. destruct (x ++ y :: z) eqn:E; [destruct x; discriminate E|]. exact IH. }
    assert (I3 : last (b :: u) b = last (b :: l) b) by (unfold last_point in I2; injection I2; tauto).
    destruct n as [|n]; [lia|]. cbn [seq map app last_point]. f_equal.
    match goal with |- last (?x :: ?y ++ ?z) _ = _ => change (last ((x :: y) ++ z) (along a b (INR 0 / INR (S n))) = last (a :: b :: l) a) end.
    rewrite L. change (last (a :: b :: l) a) with (last (b :: l) a). rewrite (last_default u b _ b), I3. apply last_default.
Qed.
(** one segment in parts, then the rest *)
Lemma path_piece : forall a b N m, (1 <= N)%nat -> forall n k, path_length (map (fun j => along a b (INR j / INR N)) (seq k n) ++ along a b (INR (k + n) / INR N) :: m) =
  INR n * / INR N * sqrt (dist2 a b) + path_length (along a b (INR (k + n) / INR N) :: m).
Proof.
  intros a b N m HN. pose proof (INR_gt0 N HN) as PN. induction n as [|n IH]; intro k.
  - cbn [seq map app]. cbn [INR]. ring.
  - cbn [seq map app]. specialize (IH (S k)). replace (S k + n)%nat with (k + S n)%nat in IH by lia.
    assert (D : sqrt (dist2 (along a b (INR k / INR N)) (along a b (INR (S k) / INR N))) = / INR N * sqrt (dist2 a b)).
    { rewrite along_dist. rewrite sqrt_mult_alt by apply pow2_ge_0. f_equal.
      replace ((INR k / INR N - INR (S k) / INR N) ^ 2) with ((/ INR N) ^ 2) by (rewrite <- (part_step N k HN); ring).
      rewrite sqrt_pow2; [reflexivity|]. apply Rlt_le, Rinv_0_lt_compat, PN. }
    destruct n as [|n].
    + cbn [seq map app] in IH |- *. replace (k + 1)%nat with (S k) in * by lia. cbn [path_length]. cbn [path_length] in IH. rewrite D. cbn [INR]. ring.
    + cbn [seq map app] in IH |- *. cbn [path_length] in IH |- *. rewrite D. rewrite IH. rewrite (S_INR (S n)). ring.
Qed.
Lemma cut_length : forall l m, cut_in_parts l m -> path_length m = path_length l.
Proof.
  intros l m H. induction H as [p|a b l m n N H IH]; [reflexivity|].
  destruct (cut_head _ _ H) as [p [t [u [E1 E2]]]]. injection E1 as <- <-. subst m.
  pose proof (INR_gt0 n N) as PN. pose proof (path_piece a b n u N n 0) as P. cbn [plus] in P.
  replace (INR n / INR n) with 1 in P by (field; lra). rewrite along_end in P. rewrite P. cbn [path_length] in IH |- *. rewrite IH. field. lra.
Qed.
Lemma ends_piece : forall a b N m, (1 <= N)%nat -> a <> b -> forall n k, no_empty_segment (along a b (INR (k + n) / INR N) :: m) ->
  no_empty_segment (map (fun j => along a b (INR j / INR N)) (seq k n) ++ along a b (INR (k + n) / INR N) :: m).
Proof.
  intros a b N m HN D. pose proof (INR_gt0 N HN) as PN. induction n as [|n IH]; intros k H.
  - exact H.
  - cbn [seq map app]. specialize (IH (S k)). replace (S k + n)%nat with (k + S n)%nat in IH by lia. specialize (IH H).
    assert (K : along a b (INR k / INR N) <> along a b (INR (S k) / INR N)).
    { apply along_inj; [exact D|]. pose proof (part_step N k HN). pose proof (Rinv_0_lt_compat _ PN). lra. }
    destruct n as [|n].
    + cbn [seq map app] in IH |- *. replace (k + 1)%nat with (S k) in * by lia. unfold no_empty_segment in *. cbn [ends_of]. constructor; [exact K|exact IH].
    + cbn [seq map app] in IH |- *. unfold no_empty_segment in *. cbn [ends_of]. constructor; [exact K|exact IH].
Qed.
Lemma cut_no_empty : forall l m, cut_in_parts l m -> no_empty_segment l -> no_empty_segment m.
Proof.
  intros l m H. induction H as [p|a b l m n N H IH]; intro Z; [exact Z|].
  unfold no_empty_segment in Z. cbn [ends_of] in Z. inversion Z as [|? ? Z1 Z2]; subst. cbn [fst snd] in Z1.
  destruct (cut_head _ _ H) as [p [t [u [E1 E2]]]]. injection E1 as <- <-. subst m.
  pose proof (INR_gt0 n N) as PN. pose proof (ends_piece a b n u N Z1 n 0) as P. cbn [plus] in P.
  replace (INR n / INR n) with 1 in P by (field; lra). rewrite along_end in P. apply P. apply IH. exact Z2.
Qed.

(** ** the panels *)
Lemma new_panel_ok : forall a b, a <> b -> new_panel a b = Ok (mkpanel a b 0 0).
Proof.
  intros a b H. unfold new_panel. destruct (Req_EM_T (fst a) (fst b)) as [E|E]; [|reflexivity].
  destruct (Req_EM_T (snd a) (snd b)) as [F|F]; [|reflexivity]. exfalso. apply H. apply pt_ext; assumption.
Qed.
Lemma new_panel_same : forall a, new_panel a a = Err ValueErr.
Proof. intro a. unfold new_panel. destruct (Req_EM_T (fst a) (fst a)) as [_|N]; [|exfalso; apply N; reflexivity]. destruct (Req_EM_T (snd a) (snd a)) as [_|N]; [reflexivity|exfalso; apply N; reflexivity]. Qed.
Lemma panels_of_ok : forall l, no_empty_segment l -> panels_of l = Ok (map (fun e => mkpanel (fst e) (snd e) 0 0) (ends_of l)).
Proof.
  induction l as [|a l IH]; intro H; [reflexivity|]. destruct l as [|b l]; [reflexivity|].
  unfold no_empty_segment in H. cbn [ends_of] in H. inversion H as [|? ? H1 H2]; subst. cbn [fst snd] in H1.
  cbn [panels_of]. rewrite new_panel_ok by exact H1. cbn [bind]. specialize (IH H2). cbn [panels_of] in IH. rewrite IH. reflexivity.
Qed.
Lemma min_of_spec : forall l x, (forall y, In y (x :: l) -> min_of x l <= y) /\ In (min_of x l) (x :: l).
Proof.
  induction l as [|z l IH]; intro x.
  - cbn. split; [|left; reflexivity]. intros y [<-|[]]. lra.
  - cbn [min_of]. destruct (IH (Rmin x z)) as [A B]. split.
    + intros y [<-|[<-|I]].
      * apply Rle_trans with (Rmin x z); [apply A; left; reflexivity|apply Rmin_l].
      * apply Rle_trans with (Rmin x z); [apply A; left; reflexivity|apply Rmin_r].
      * apply A. right. exact I.
    + destruct B as [B|B]; [|right; right; exact B]. rewrite <- B. destruct (Rle_dec x z) as [C|C].
      * left. rewrite Rmin_left by exact C. reflexivity.
      * right. left. rewrite Rmin_right by lra. reflexivity.
Qed.
Lemma seg_len_pos : forall a b, a <> b -> 0 < seg_len a b.
Proof. intros a b H. unfold seg_len. apply sqrt_lt_R0. pose proof (dist2_pos a b H) as D. unfold dist2 in D. lra. Qed.
Lemma seg_lens_pos : forall l, no_empty_segment l -> Forall (fun x => 0 < x) (seg_lens l).
Proof.
  induction l as [|a l IH]; intro H; [constructor|]. destruct l as [|b l]; [constructor|].
  unfold no_empty_segment in H. cbn [ends_of] in H. inversion H as [|? ? H1 H2]; subst. cbn [fst snd] in H1.
  cbn [seg_lens]. constructor; [apply seg_len_pos, H1|]. apply (IH H2).
Qed.
Lemma segments_ok : forall rnd delta l, delta <> 0 -> exists s, segments rnd delta l = Ok s.
Proof.
  intros rnd delta l D. induction l as [|a l [s IH]]; [exists []; reflexivity|]. destruct l as [|b l]; [exists []; reflexivity|].
  cbn [segments]. cbn [segments] in IH. rewrite IH. unfold one_segment. destruct (Req_EM_T delta 0) as [Z|Z]; [contradiction|]. cbv zeta.
  destruct (Nat.leb (rnd (seg_len a b / delta)) 1); cbn [bind]; eexists; reflexivity.
Qed.
Lemma refine_ok : forall rnd a b l r, no_empty_segment (a :: b :: l) -> (1 <= r)%nat -> exists m, refine rnd (a :: b :: l) r = Ok m.
Proof.
  intros rnd a b l r H R. unfold refine. pose proof (seg_lens_pos _ H) as P. cbn [seg_lens] in *.
  set (ds := match l with [] => [] | _ => _ end) in *.
  assert (M : 0 < min_of (seg_len a b) ds).
  { destruct (min_of_spec ds (seg_len a b)) as [_ I]. rewrite Forall_forall in P. apply P, I. }
  destruct (segments_ok rnd (min_of (seg_len a b) ds / INR r) (a :: b :: l)) as [s E].
  - pose proof (INR_gt0 r R). intro Z. assert (0 < min_of (seg_len a b) ds / INR r) by (apply Rdiv_lt_0_compat; assumption). lra.
  - rewrite E. eexists. reflexivity.
Qed.
(** ** the path of a solid *)
Lemma closed_path_closed : forall l, closed (closed_path l).
Proof.
  intros l. destruct l as [|p l]; [reflexivity|]. unfold closed_path. destruct (pt_eqb p (last (p :: l) p)) eqn:E.
  - unfold closed. cbn [first_point last_point]. f_equal. unfold pt_eqb in E.
    destruct (Req_EM_T (fst p) (fst (last (p :: l) p))) as [A|A]; [|discriminate E].
    destruct (Req_EM_T (snd p) (snd (last (p :: l) p))) as [B|B]; [|discriminate E]. apply pt_ext; assumption.
  - unfold closed. cbn [app first_point last_point]. f_equal. change (p :: l ++ [p]) with ((p :: l) ++ [p]). rewrite last_last. reflexivity.
Qed.
Lemma add_solid : forall rnd s l wall r, (2 <= length l)%nat -> (1 <= r)%nat -> no_empty_segment (closed_path l) ->
  exists m,
    add_object rnd s 2 l wall r = Ok (mksys (s_u s) (s_alpha s) (s_1d s) (s_2d s ++ [mkobj m (map (fun e => mkpanel (fst e) (snd e) 0 0) (ends_of m)) wall]) true)
    /\ cut_in_parts (closed_path l) m /\ path_length m = path_length (closed_path l) /\ closed m.
Proof.
  intros rnd s l wall r L R H.
  assert (X : exists a b t, closed_path l = a :: b :: t).
  { destruct l as [|a [|b l]]; [cbn in L; lia|cbn in L; lia|]. unfold closed_path. destruct (pt_eqb a (last (a :: b :: l) a)); eexists; eexists; eexists; reflexivity. }
  destruct X as [a [b [t E]]]. pose proof (closed_path_closed l) as C. rewrite E in H, C. destruct (refine_ok rnd a b t r H R) as [m M].
  pose proof (refine_closed _ _ _ _ C M) as K. exists m. split; [|split; [|split]].
  - unfold add_object, new_obj. rewrite E, M. cbn [bind]. rewrite panels_of_ok by (apply cut_no_empty with (1 := K); exact H). reflexivity.
  - rewrite E. exact K.
  - rewrite E. apply cut_length, K.
  - destruct (cut_ends _ _ K) as [A B]. unfold closed. rewrite A, B. exact C.
Qed.
(** giving the last point or not is the same *)
Lemma closing_given_or_not : forall rnd s p l wall r, last (p :: l) p <> p -> add_object rnd s 2 (p :: l) wall r = add_object rnd s 2 ((p :: l) ++ [p]) wall r.
Proof.
  intros rnd s p l wall r N. unfold add_object. replace (closed_path ((p :: l) ++ [p])) with (closed_path (p :: l)); [reflexivity|].
  unfold closed_path. cbn [app]. change (p :: l ++ [p]) with ((p :: l) ++ [p]). rewrite last_last.
  assert (A : pt_eqb p p = true).
  { unfold pt_eqb. destruct (Req_EM_T (fst p) (fst p)) as [_|Z]; [|exfalso; apply Z; reflexivity]. destruct (Req_EM_T (snd p) (snd p)) as [_|Z]; [reflexivity|exfalso; apply Z; reflexivity]. }
  rewrite A. destruct (pt_eqb p (last (p :: l) p)) eqn:E; [|reflexivity]. exfalso. apply N. symmetry. unfold pt_eqb in E.
  destruct (Req_EM_T (fst p) (fst (last (p :: l) p))) as [B|B]; [|discriminate E].
  destruct (Req_EM_T (snd p) (snd (last (p :: l) p))) as [D|D]; [|discriminate E]. apply pt_ext; assumption.
Qed.
(** ** open boundaries *)
Lemma straight_wall_refused : forall rnd s a b wall, rnd 1 = 1%nat -> add_object rnd s 1 [a; b] wall 1 = Err ValueErr.
Proof.
  intros rnd s a b wall H. unfold add_object, new_obj, refine. cbn [Nat.ltb Nat.leb seg_lens min_of segments]. unfold one_segment.
  destruct (Req_EM_T (seg_len a b / INR 1) 0) as [Z|Z].
  - destruct (Req_EM_T (seg_len a b) 0) as [Y|Y]; [reflexivity|]. exfalso. apply Y. cbn [INR] in Z. lra.
  - cbv zeta. replace (seg_len a b / (seg_len a b / INR 1)) with 1.
    + rewrite H. cbn [Nat.leb bind app panels_of]. rewrite new_panel_same. reflexivity.
    + cbn [INR] in *. field. lra.
Qed.
Lemma boundary_closed : forall rnd s l wall r t, add_object rnd s 1 l wall r = Ok t ->
  exists o, s_1d t = s_1d s ++ [o] /\ closed (o_nodes o) /\ first_point (o_nodes o) = first_point l.
Proof.
  intros rnd s l wall r t E. unfold add_object in E. destruct (Nat.ltb r 1); [discriminate E|]. unfold new_obj, refine in E.
  destruct l as [|p l]; [discriminate E|]. destruct (seg_lens (p :: l)) as [|d ds]; [discriminate E|].
  destruct (segments rnd (min_of d ds / INR r) (p :: l)) as [q|e] eqn:S; cbn [bind] in E; [|discriminate E].
  destruct (panels_of (q ++ [p])) as [ps|e]; cbn [bind] in E; [|discriminate E]. injection E as <-.
  eexists. split; [reflexivity|]. cbn [o_nodes].
  destruct (cut_head _ _ (segments_cut _ _ _ _ _ S)) as [p' [t [u [E1 E2]]]]. injection E1 as <- <-.
  destruct q as [|q0 q]; [cbn; split; reflexivity|]. cbn [app] in E2. injection E2 as -> _. split; [|reflexivity].
  unfold closed. cbn [app first_point last_point]. change (p :: q ++ [p]) with ((p :: q) ++ [p]). rewrite last_last. reflexivity.
Qed.

(** ** the positions along a line *)
Lemma nth_map_seq : forall (f : nat -> R) n k d, (k < n)%nat -> nth k (map f (seq 0 n)) d = f k.
Proof. intros f n k d H. rewrite nth_indep with (d' := f 0%nat) by (rewrite map_length, seq_length; exact H). rewrite map_nth, seq_nth by exact H. reflexivity. Qed.
Lemma min_linspace : forall a b n, (2 <= n)%nat -> min_of (nth 0 (linspace a b n) 0) (linspace a b n) = Rmin a b.
Proof.
  intros a b n H. assert (P : 0 < INR (n - 1)) by (apply INR_gt0; lia).
  assert (N0 : nth 0 (linspace a b n) 0 = a) by (unfold linspace; rewrite nth_map_seq by lia; cbn [INR]; ring). rewrite N0.
  destruct (min_of_spec (linspace a b n) a) as [A B].
  assert (IB : In b (linspace a b n)).
  { unfold linspace. apply in_map_iff. exists (n - 1)%nat. split; [field; lra|]. apply in_seq. lia. }
  assert (IA : min_of a (linspace a b n) <= a) by (apply A; left; reflexivity).
  assert (IC : min_of a (linspace a b n) <= b) by (apply A; right; exact IB).
  apply Rle_antisym; [apply Rmin_glb; assumption|].
  assert (G : forall y, In y (a :: linspace a b n) -> Rmin a b <= y).
  { intros y [<-|I]; [apply Rmin_l|]. unfold linspace in I. apply in_map_iff in I as [k [<- K]]. apply in_seq in K.
    assert (K1 : 0 <= INR k) by apply pos_INR. assert (K2 : INR k <= INR (n - 1)) by (apply le_INR; lia).
    assert (T : 0 <= INR k / INR (n - 1) <= 1).
    { split; [apply Rmult_le_pos; [exact K1|apply Rlt_le, Rinv_0_lt_compat, P]|]. apply Rmult_le_reg_r with (INR (n - 1)); [exact P|]. unfold Rdiv. rewrite Rmult_assoc, Rinv_l by lra. lra. }
    replace (a + INR k * ((b - a) / INR (n - 1))) with (a + INR k / INR (n - 1) * (b - a)) by (field; lra).
    destruct (Rle_dec a b) as [AB|AB]; [rewrite Rmin_left by exact AB|rewrite Rmin_right by lra]; nra. }
  apply G, B.
Qed.
Lemma positions_nth : forall a b n k, (2 <= n)%nat -> (k < n)%nat ->
  let d t := sqrt ((fst (along a b t) - Rmin (fst a) (fst b)) ^ 2 + (snd (along a b t) - Rmin (snd a) (snd b)) ^ 2) in
  nth k (line_positions a b n) 0 = d (INR k / INR (n - 1)) - d 0.
Proof.
  intros a b n k H K d. assert (P : 0 < INR (n - 1)) by (apply INR_gt0; lia). unfold line_positions. cbv zeta. rewrite !min_linspace by exact H.
  set (r := map _ (combine (linspace (fst a) (fst b) n) (linspace (snd a) (snd b) n))).
  assert (RN : r = map (fun j => d (INR j / INR (n - 1))) (seq 0 n)).
  { unfold r, linspace. generalize (seq 0 n) as l. induction l as [|j l IH]; [reflexivity|]. cbn [map combine]. f_equal; [|exact IH].
    unfold d. cbn [fst snd]. unfold along. cbn [fst snd]. f_equal. field. lra. }
  assert (N0 : nth 0 r 0 = d 0).
  { rewrite RN, nth_map_seq by lia. f_equal. cbn [INR]. unfold Rdiv. ring. }
  rewrite N0, RN, map_map, nth_map_seq by exact K. reflexivity.
Qed.
Lemma sqrt_scaled : forall t x y, 0 <= t -> sqrt ((t * x) ^ 2 + (t * y) ^ 2) = t * sqrt (x ^ 2 + y ^ 2).
Proof.
  intros t x y T. replace ((t * x) ^ 2 + (t * y) ^ 2) with (t ^ 2 * (x ^ 2 + y ^ 2)) by ring. rewrite sqrt_mult_alt by apply pow2_ge_0. f_equal. apply sqrt_pow2, T.
Qed.
Lemma positions_up : forall a b n k, fst a <= fst b -> snd a <= snd b -> (2 <= n)%nat -> (k < n)%nat ->
  nth k (line_positions a b n) 0 = INR k / INR (n - 1) * sqrt (dist2 a b).
Proof.
  intros a b n k X Y H K. rewrite positions_nth by assumption. cbv zeta. unfold along. cbn [fst snd]. rewrite !Rmin_left by assumption.
  assert (P : 0 < INR (n - 1)) by (apply INR_gt0; lia). assert (T : 0 <= INR k / INR (n - 1)) by (apply Rmult_le_pos; [apply pos_INR|apply Rlt_le, Rinv_0_lt_compat, P]).
  set (t := INR k / INR (n - 1)) in *.
  replace (fst a + t * (fst b - fst a) - fst a) with (t * (fst b - fst a)) by ring. replace (snd a + t * (snd b - snd a) - snd a) with (t * (snd b - snd a)) by ring.
  replace (fst a + 0 * (fst b - fst a) - fst a) with (0 * (fst b - fst a)) by ring. replace (snd a + 0 * (snd b - snd a) - snd a) with (0 * (snd b - snd a)) by ring.
  rewrite !sqrt_scaled by lra. unfold dist2. replace ((fst a - fst b) ^ 2 + (snd a - snd b) ^ 2) with ((fst b - fst a) ^ 2 + (snd b - snd a) ^ 2) by ring. ring.
Qed.
Lemma positions_down : forall a b n k, fst b <= fst a -> snd b <= snd a -> (2 <= n)%nat -> (k < n)%nat ->
  nth k (line_positions a b n) 0 = - (INR k / INR (n - 1) * sqrt (dist2 a b)).
Proof.
  intros a b n k X Y H K. rewrite positions_nth by assumption. cbv zeta. unfold along. cbn [fst snd]. rewrite !Rmin_right by assumption.
  assert (P : 0 < INR (n - 1)) by (apply INR_gt0; lia).
  assert (T : 0 <= INR k / INR (n - 1) <= 1).
  { split; [apply Rmult_le_pos; [apply pos_INR|apply Rlt_le, Rinv_0_lt_compat, P]|]. apply Rmult_le_reg_r with (INR (n - 1)); [exact P|]. unfold Rdiv. rewrite Rmult_assoc, Rinv_l by lra.
    assert (INR k <= INR (n - 1)) by (apply le_INR; lia). lra. }
  set (t := INR k / INR (n - 1)) in *.
  replace (fst a + t * (fst b - fst a) - fst b) with ((1 - t) * (fst a - fst b)) by ring. replace (snd a + t * (snd b - snd a) - snd b) with ((1 - t) * (snd a - snd b)) by ring.
  replace (fst a + 0 * (fst b - fst a) - fst b) with (1 * (fst a - fst b)) by ring. replace (snd a + 0 * (snd b - snd a) - snd b) with (1 * (snd a - snd b)) by ring.
  rewrite !sqrt_scaled by lra. unfold dist2. ring.
Qed.
(** the positions of a line that goes up or down in both directions are the distances *)
Lemma positions_distances : forall a b n j k, 0 <= (fst b - fst a) * (snd b - snd a) -> (2 <= n)%nat -> (j < n)%nat -> (k < n)%nat ->
  nth 0 (line_positions a b n) 0 = 0
  /\ Rabs (nth j (line_positions a b n) 0 - nth k (line_positions a b n) 0) = sqrt (dist2 (along a b (INR j / INR (n - 1))) (along a b (INR k / INR (n - 1)))).
Proof.
  intros a b n j k S H J K.
  assert (D : (fst a <= fst b /\ snd a <= snd b) \/ (fst b <= fst a /\ snd b <= snd a)).
  { destruct (Rle_dec (fst a) (fst b)) as [A|A]; destruct (Rle_dec (snd a) (snd b)) as [B|B]; [left; lra| | |right; lra].
    - destruct (Req_dec (fst a) (fst b)) as [E|E]; [right; lra|]. exfalso. nra.
    - destruct (Req_dec (snd a) (snd b)) as [E|E]; [right; lra|]. exfalso. nra. }
  rewrite along_dist, sqrt_mult_alt by apply pow2_ge_0.
  assert (Z : INR 0 / INR (n - 1) = 0) by (cbn [INR]; unfold Rdiv; ring).
  assert (Q : sqrt ((INR j / INR (n - 1) - INR k / INR (n - 1)) ^ 2) = Rabs (INR j / INR (n - 1) - INR k / INR (n - 1))).
  { replace ((INR j / INR (n - 1) - INR k / INR (n - 1)) ^ 2) with ((INR j / INR (n - 1) - INR k / INR (n - 1))²) by (unfold Rsqr; ring). apply sqrt_Rsqr_abs. }
  rewrite Q. pose proof (sqrt_pos (dist2 a b)) as SP.
  destruct D as [[A B]|[A B]].
  - rewrite !positions_up by (assumption || lia). rewrite Z. split; [ring|]. rewrite <- Rmult_minus_distr_r, Rabs_mult, (Rabs_pos_eq (sqrt _)) by exact SP. reflexivity.
  - rewrite !positions_down by (assumption || lia). rewrite Z. split; [ring|].
    replace (- (INR j / INR (n - 1) * sqrt (dist2 a b)) - - (INR k / INR (n - 1) * sqrt (dist2 a b))) with (- ((INR j / INR (n - 1) - INR k / INR (n - 1)) * sqrt (dist2 a b))) by ring.
    rewrite Rabs_Ropp, Rabs_mult, (Rabs_pos_eq (sqrt _)) by exact SP. reflexivity.
Qed.
(** on the other lines the whole length is the difference of the two sides *)
Lemma sqrt_one_side : forall x, sqrt (x ^ 2 + 0 ^ 2) = Rabs x.
Proof. intros x. replace (x ^ 2 + 0 ^ 2) with (x²) by (unfold Rsqr; ring). apply sqrt_Rsqr_abs. Qed.
Lemma positions_crossed : forall a b n, (fst b - fst a) * (snd b - snd a) < 0 -> (2 <= n)%nat ->
  Rabs (nth (n - 1) (line_positions a b n) 0) = Rabs (Rabs (fst b - fst a) - Rabs (snd b - snd a))
  /\ Rabs (nth (n - 1) (line_positions a b n) 0) < sqrt (dist2 a b).
Proof.
  intros a b n S H. assert (P : 0 < INR (n - 1)) by (apply INR_gt0; lia).
  assert (E : Rabs (nth (n - 1) (line_positions a b n) 0) = Rabs (Rabs (fst b - fst a) - Rabs (snd b - snd a))).
  { rewrite positions_nth by lia. cbv zeta. replace (INR (n - 1) / INR (n - 1)) with 1 by (field; lra). rewrite along_end, along_start.
    destruct (Rle_dec (fst a) (fst b)) as [A|A].
    - assert (B : snd b <= snd a) by nra. rewrite (Rmin_left (fst a)), (Rmin_right (snd a)) by lra.
      replace (snd b - snd b) with 0 by ring. rewrite sqrt_one_side. replace (fst a - fst a) with 0 by ring. rewrite (Rplus_comm (0 ^ 2)), sqrt_one_side.
      rewrite (Rabs_minus_sym (snd a)). f_equal.
    - assert (B : snd a <= snd b) by nra. rewrite (Rmin_right (fst a)), (Rmin_left (snd a)) by lra.
      replace (fst b - fst b) with 0 by ring. rewrite (Rplus_comm (0 ^ 2)), sqrt_one_side. replace (snd a - snd a) with 0 by ring. rewrite sqrt_one_side.
      rewrite (Rabs_minus_sym (fst a)). rewrite Rabs_minus_sym. reflexivity. }
  split; [exact E|]. rewrite E. rewrite <- (sqrt_pow2 (Rabs (Rabs (fst b - fst a) - Rabs (snd b - snd a)))) by apply Rabs_pos.
  apply sqrt_lt_1_alt. split; [apply pow2_ge_0|]. rewrite <- Rsqr_pow2, <- Rsqr_abs. unfold dist2.
  assert (Q : 0 < Rabs (fst b - fst a) * Rabs (snd b - snd a)).
  { rewrite <- Rabs_mult. apply Rabs_pos_lt. lra. }
  assert (X : forall z, Rabs z * Rabs z = z ^ 2) by (intro z; rewrite <- Rabs_mult, Rabs_pos_eq by nra; ring).
  pose proof (X (fst b - fst a)) as X1. pose proof (X (snd b - snd a)) as X2. unfold Rsqr. nra.
Qed.

(** ** the pressure coefficient *)
Lemma pressure_bound : forall u vx vy, u <> 0 -> pressure u vx vy <= 1 /\ (pressure u vx vy = 1 <-> vx = 0 /\ vy = 0) /\ (pressure u vx vy = 0 <-> vx ^ 2 + vy ^ 2 = u ^ 2).
Proof.
  intros u vx vy H. pose proof (pow2_gt_0 u H) as U. unfold pressure.
  assert (E : (vx ^ 2 + vy ^ 2) / u ^ 2 * u ^ 2 = vx ^ 2 + vy ^ 2) by (field; lra).
  set (z := (vx ^ 2 + vy ^ 2) / u ^ 2) in *. pose proof (pow2_ge_0 vx). pose proof (pow2_ge_0 vy).
  assert (Z : 0 <= z) by nra. split; [lra|split; split].
  - intro A. assert (z = 0) by lra. assert (S : vx ^ 2 + vy ^ 2 = 0) by nra. split; nra.
  - intros [-> ->]. nra.
  - intro A. assert (z = 1) by lra. nra.
  - intro A. assert (z = 1) by nra. lra.
Qed.
Lemma pressure_scaled : forall k u vx vy, u <> 0 -> k <> 0 -> pressure (k * u) (k * vx) (k * vy) = pressure u vx vy.
Proof. intros. unfold pressure. field. split; assumption. Qed.

(** ** The velocity away from the panels *)
Lemma sum_list_scale {A} c (f g : A -> R) l : (forall a, In a l -> f a = c * g a) -> sum_list (map f l) = c * sum_list (map g l).
Proof. induction l as [|a l IH]; intro H; cbn; [ring|]. rewrite H by (left; reflexivity). rewrite IH by (intros; apply H; right; assumption). ring. Qed.
Lemma integral_source quad p x y : linear_quad quad -> p_a p <> p_b p ->
  integral quad x y p 1 0 = 2 * PI * fst (line_of_sources quad p x y) /\ integral quad x y p 0 1 = 2 * PI * snd (line_of_sources quad p x y).
Proof.
  intros [_ EX] H. pose proof PI_RGT_0. unfold integral, line_of_sources. cbn [fst snd]. rewrite <- p_len_dist. split.
  - rewrite (EX _ (fun s => (x - fst (along (p_a p) (p_b p) (s / p_len p))) / dist2 (x, y) (along (p_a p) (p_b p) (s / p_len p)))); [field; lra|].
    intro s. rewrite influence_of_sources by exact H. cbv zeta. f_equal. ring.
  - rewrite (EX _ (fun s => (y - snd (along (p_a p) (p_b p) (s / p_len p))) / dist2 (x, y) (along (p_a p) (p_b p) (s / p_len p)))); [field; lra|].
    intro s. rewrite influence_of_sources by exact H. cbv zeta. f_equal. ring.
Qed.
Lemma velocity_away quad u alpha ps x y : linear_quad quad -> Forall (fun p => p_a p <> p_b p) ps -> (forall p, In p ps -> on_panel p x y = false) ->
  let v := (u * cos alpha + sum_list (map (fun p => p_sigma p * fst (line_of_sources quad p x y)) ps),
            u * sin alpha + sum_list (map (fun p => p_sigma p * snd (line_of_sources quad p x y)) ps)) in
  Rabs (fst v) <= 10 ^ 30 -> Rabs (snd v) <= 10 ^ 30 -> velocity_with quad u alpha ps x y = v.
Proof.
  intros LQ ND OFF v A B. pose proof PI_RGT_0. unfold velocity_with.
  assert (F : find (fun p => on_panel p x y) ps = None) by (clear - OFF; induction ps as [|p l IH]; [reflexivity|]; cbn; rewrite OFF by (left; reflexivity); apply IH; intros; apply OFF; right; assumption).
  rewrite F. cbv zeta. rewrite Forall_forall in ND.
  rewrite (sum_list_scale (2 * PI) _ (fun p => p_sigma p * fst (line_of_sources quad p x y))) by (intros p I; destruct (integral_source quad p x y LQ (ND p I)) as [-> _]; ring).
  rewrite (sum_list_scale (2 * PI) (fun p => p_sigma p * integral quad x y p 0 1) (fun p => p_sigma p * snd (line_of_sources quad p x y))) by (intros p I; destruct (integral_source quad p x y LQ (ND p I)) as [_ ->]; ring).
  set (sx := sum_list (map (fun p => p_sigma p * fst (line_of_sources quad p x y)) ps)) in *. set (sy := sum_list (map (fun p => p_sigma p * snd (line_of_sources quad p x y)) ps)) in *.
  assert (E : forall s, / 2 / PI * (2 * PI * s) = s) by (intro s; field; lra). rewrite !E. unfold v in *. cbn [fst snd] in *.
  destruct (Rlt_dec (10 ^ 30) (Rabs (u * cos alpha + sx))); [lra|]. destruct (Rlt_dec (10 ^ 30) (Rabs (u * sin alpha + sy))); [lra|]. reflexivity.
Qed.
