(** * MirrorProofs7: how far the images reach *)
From Verif Require Import Num Res ListLib Arr FieldModel FieldSpec FieldProofs FieldProofs2 FieldProofs3 ScalarFieldModel ScalarProofs
  TemporalModel GradModel GradSpec BlModel MirrorModel MirrorSpec MirrorProofs MirrorProofs2 MirrorProofs3 MirrorProofs4 MirrorProofs5 MirrorProofs6.
Open Scope num_scope.

Lemma even_nth l dl i : axis_evenly l dl -> (i < length l)%nat -> nths l i = nths l 0%nat + qn i * dl.
Proof.
  intros H. induction i as [|i IH]; intro L; [change (qn 0) with (qz 0); qring|].
  specialize (H i L). specialize (IH ltac:(lia)). rewrite qn_S. qlra.
Qed.
Lemma even_last l dl : axis_evenly l dl -> l <> [] -> last l (qz 0) = nths l 0%nat + (qn (length l) - 1) * dl.
Proof.
  intros H N. rewrite last_nths by exact N. destruct l as [|a l]; [congruence|].
  rewrite (even_nth (a :: l) dl _ H) by (cbn; lia). f_equal. f_equal. cbn [length]. rewrite qn_S.
  replace (S (length l) - 1)%nat with (length l) by lia. qring.
Qed.
Lemma qmul_lt_inv a b k : 0 < k -> a * k < b * k -> a < b.
Proof. intros K H. destruct (qltb_spec a b) as [Q|Q]; [exact Q|]. apply (qmul_le_r _ _ k) in Q; [exfalso; qlra|now apply Qclt_le_weak]. Qed.
Lemma qmul_le_inv a b k : 0 < k -> a * k <= b * k -> a <= b.
Proof. intros K H. destruct (qltb_spec b a) as [Q|Q]; [|exact Q]. apply (qmul_lt_r _ _ k) in Q; [exfalso; qlra|exact K]. Qed.
Lemma count_bounds A s p b n c dl : axis_evenly A dl -> (2 <= length A)%nat -> 0 < dl -> Z.of_nat c = mirror_count A s p b n ->
  qn c * dl < qz (mirror_rows A n) * dl + 2 * (sgn s * (b - p)) /\
  qz (mirror_rows A n) * dl + 2 * (sgn s * (b - p)) <= (qn c + 1) * dl.
Proof.
  intros H L D E. unfold mirror_count in E. pose proof (H 0%nat ltac:(lia)) as ED. rewrite ED in E.
  set (X := qz (mirror_rows A n) + 2 * match s with Low => - (p - b) / dl | High => (p - b) / dl end) in E.
  assert (X * dl = qz (mirror_rows A n) * dl + 2 * (sgn s * (b - p))) as EX.
  { unfold X. assert (dl <> 0) as NZ by now apply qgt_neq.
    destruct s; cbn [sgn].
    - pose proof (qdiv_mul (- (p - b)) dl NZ) as Q. set (t := - (p - b) / dl) in *. clearbody t. qnra.
    - pose proof (qdiv_mul (p - b) dl NZ) as Q. set (t := (p - b) / dl) in *. clearbody t. qnra. }
  rewrite <- EX.
  assert (qn c < X) as Q1. { unfold qn. rewrite E. apply qceil_gt. }
  assert (X <= qn c + 1) as Q2.
  { unfold qn. rewrite E. pose proof (qceil_ge X) as Q. rewrite qz_sub. change (qz 1) with (1 : num). qlra. }
  split; [now apply qmul_lt_r|]. apply qmul_le_r; [now apply Qclt_le_weak|assumption].
Qed.
Lemma ext_ends K R s c dl : axis_evenly K dl -> (2 <= length K)%nat -> axis_extends K R (lo_of s c) (hi_of s c) ->
  nths R 0%nat = nths K 0%nat - qn (lo_of s c) * dl /\ last R (qz 0) = last K (qz 0) + qn (hi_of s c) * dl.
Proof.
  intros H L (LR & _ & H1 & H2 & H3). pose proof (H 0%nat ltac:(lia)) as E1.
  pose proof (H (length K - 2)%nat ltac:(lia)) as E2. replace (S (length K - 2)) with (length K - 1)%nat in E2 by lia.
  assert (forall i, (i < length K)%nat -> nths R (lo_of s c + i)%nat = nths K i) as H2'.
  { intros i Li. specialize (H2 i Li). rewrite (nths_nth_error K i Li) in H2. now apply nth_error_nths in H2. }
  split.
  - destruct (lo_of s c) as [|m] eqn:EL.
    + pose proof (H2' 0%nat ltac:(lia)) as Q. cbn [Nat.add] in Q. rewrite Q. change (qn 0) with (qz 0). qring.
    + rewrite (H1 0%nat) by lia. rewrite E1. change (qn 0) with (qz 0). qring.
  - assert (R <> []) as NR by (intros ->; cbn in LR; lia). assert (K <> []) as NK by (intros ->; cbn in L; lia).
    rewrite (last_nths R) by exact NR. rewrite (last_nths K) by exact NK. rewrite LR.
    destruct (hi_of s c) as [|m] eqn:EL.
    + replace (lo_of s c + length K + 0 - 1)%nat with (lo_of s c + (length K - 1))%nat by lia.
      rewrite H2' by lia. change (qn 0) with (qz 0). qring.
    + replace (lo_of s c + length K + S m - 1)%nat with (lo_of s c + length K + m)%nat by lia.
      rewrite H3 by lia. rewrite E2. rewrite qn_S. qring.
Qed.

Lemma unmasked_border f g : sf_wf f -> nothing_masked f -> borderless f g -> g = f.
Proof.
  intros W NM [B|[_ ->]]; [|reflexivity]. unfold crop_masked_border in B.
  destruct (any_masked f) eqn:A; [|discriminate]. exfalso.
  unfold any_masked in A. apply existsb_exists in A. destruct A as (b & I & ->). unfold flatten in I. apply in_map_iff in I.
  destruct I as ([i j] & E & I). apply in_aidx in I. destruct W as [_ [M0 M1]]. rewrite M0, M1 in I. cbn in E.
  rewrite (NM _ _ _ _ (shows_idx f i j I)) in E. discriminate.
Qed.
Lemma end_bounds (l : list num) x : increasing l -> In x l -> nths l 0%nat <= x /\ x <= last l (qz 0).
Proof. intros H Q. apply (In_nth _ _ (qz 0)) in Q. destruct Q as (i & L & <-). now apply last_le_nth. Qed.
Lemma ends_in (l : list num) : (2 <= length l)%nat -> In (nths l 0%nat) l /\ In (last l (qz 0)) l.
Proof. intro L. rewrite last_nths by (intros ->; cbn in L; lia). split; apply nth_In; lia. Qed.
(** a coordinate of an even axis that is not its first is at least one step after it *)
Lemma step_after dl (l : list num) x : 0 < dl -> axis_evenly l dl -> In x l -> nths l 0%nat < x -> nths l 0%nat + dl <= x.
Proof.
  intros Hd H Q L. apply (In_nth _ _ (qz 0)) in Q. destruct Q as (i & Li & <-). destruct i as [|i]; [exfalso; qlra|].
  rewrite (even_nth l dl _ H Li). rewrite qn_S. pose proof (qn_nonneg i). pose proof (qmul_nonneg (qn i) dl ltac:(assumption) ltac:(now apply Qclt_le_weak)). qlra.
Qed.
Lemma step_before dl (l : list num) x : 0 < dl -> axis_evenly l dl -> In x l -> x < last l (qz 0) -> x + dl <= last l (qz 0).
Proof.
  intros Hd H Q L. assert (l <> []) as N by (intros ->; destruct Q). rewrite (even_last l dl H N) in *.
  apply (In_nth _ _ (qz 0)) in Q. destruct Q as (i & Li & <-). rewrite (even_nth l dl _ H Li) in *.
  assert (S i <> length l) as NE. { intro E. rewrite <- E, qn_S in L. qlra. }
  assert (qn i + 1 + 1 <= qn (length l)) as Q.
  { rewrite <- !qn_S. unfold qn. apply qz_le. lia. }
  pose proof (qmul_nonneg (qn (length l) - (qn i + 1 + 1)) dl ltac:(qlra) ltac:(now apply Qclt_le_weak)). qlra.
Qed.
Section Reach.
Variables (ci : sfield -> nat -> nat -> num -> num -> onum) (nearest cubic : interps).
Context (f : sfield) (d : pdir) (p : num) (coef : num) (r : sfield) (dl : num).
Hypothesis (W : sf_wf f) (C : sf_clean f) (HS : grid_sorted (sg f)) (NM : nothing_masked f).
Hypothesis (Hd : (0 < dl)%num) (HE : axis_evenly (pos_axis f d) dl).
Notation A := (pos_axis f d).
Lemma reach_facts n : sf_mirroring ci nearest cubic f d p n coef GNone = Ok r -> (2 <= length (ax (sg r)))%nat -> (2 <= length (ay (sg r)))%nat ->
  exists K s c, is_side A p s /\ (forall x, In x K <-> In x A /\ kept_side A p x) /\ (2 <= length K)%nat /\ (2 <= length A)%nat /\ increasing K /\ axis_evenly K dl /\
    nths (pos_axis r d) 0%nat = nths K 0%nat - qn (lo_of s c) * dl /\ last (pos_axis r d) (qz 0) = last K (qz 0) + qn (hi_of s c) * dl /\
    qn c * dl < qz (mirror_rows A n) * dl + 2 * (sgn s * (gap_border A K p s - p)) /\
    qz (mirror_rows A n) * dl + 2 * (sgn s * (gap_border A K p s - p)) <= (qn c + 1) * dl.
Proof using All.
  intros H LX LY.
  destruct (mirror_run ci nearest cubic f d p n coef r dl W C HS Hd HE H LX LY)
    as (g & k & s & c & B & P2 & KP & P4 & P5 & P6 & P7 & P8 & P9 & P10 & P11 & P12 & P13 & P14 & P15 & P16 & P17 & P18).
  rewrite (unmasked_border f g W NM B) in *.
  destruct (count_bounds _ _ _ _ _ _ dl HE P5 Hd P18) as [Q1 Q2].
  destruct (ext_ends _ _ s c dl P16 P17 P10) as [E1 E2].
  destruct KP as (_ & _ & Sk & _).
  exists (pos_axis k d), s, c. repeat (split; [solve [auto using pos_sorted]|]). exact Q2.
Qed.
Lemma rows_all : (2 <= length A)%nat -> qz (mirror_rows A None) = qn (length A) - 1.
Proof using f d. intro L. unfold mirror_rows, qn. rewrite qz_sub. reflexivity. Qed.
(** C124: with the plane strictly between the ends of the axis, the image of every row kept is within the mirrored axis *)
Lemma reach_inside : sf_mirroring ci nearest cubic f d p None coef GNone = Ok r -> (2 <= length (ax (sg r)))%nat -> (2 <= length (ay (sg r)))%nat ->
  nths A 0%nat < p -> p < last A (qz 0) ->
  forall x, In x A -> kept_side A p x -> nths (pos_axis r d) 0%nat <= 2 * p - x /\ 2 * p - x <= last (pos_axis r d) (qz 0).
Proof using All.
  intros H LX LY P1 P2 x Ix Kx.
  destruct (reach_facts None H LX LY) as (K & s & c & IS & IK & LK & LA & SK & EK & E1 & E2 & Q1 & Q2).
  rewrite (rows_all LA) in Q1, Q2. pose proof (pos_sorted f d HS) as SA.
  pose proof (even_last A dl HE ltac:(intro Q; rewrite Q in LA; cbn in LA; lia)) as EA.
  destruct (ends_in K LK) as [I0 I1]. apply IK in I0. apply IK in I1. destruct I0 as [I0 K0], I1 as [I1 K1].
  pose proof (end_bounds A x SA Ix) as [B1 B2].
  assert (nths K 0%nat <= last K (qz 0)) as OK. { apply (end_bounds K _ SK). apply ends_in, LK. }
  apply (side_kept A p s _ IS) in Kx. apply (side_kept A p s _ IS) in K0. apply (side_kept A p s _ IS) in K1.
  rewrite E1, E2. destruct s; cbn [gap_border sgn lo_of hi_of] in *.
  - rewrite (proj2 (qltb_ge _ _) (Qclt_le_weak _ _ P1)) in Q1, Q2. change (qn 0) with (qz 0).
    pose proof (step_after dl A _ Hd HE I0 ltac:(qlra)) as SA'. split; qlra.
  - rewrite (proj2 (qltb_ge _ _) (Qclt_le_weak _ _ P2)) in Q1, Q2. change (qn 0) with (qz 0).
    pose proof (step_before dl A _ Hd HE I1 ltac:(qlra)) as SA'. split; qlra.
Qed.
(** but with the plane on an end of the axis or beyond it, the image of the row that is the furthest from the plane never is *)
Lemma reach_border : sf_mirroring ci nearest cubic f d p None coef GNone = Ok r -> (2 <= length (ax (sg r)))%nat -> (2 <= length (ay (sg r)))%nat ->
  (p <= nths A 0%nat -> 2 * p - last A (qz 0) < nths (pos_axis r d) 0%nat) /\
  (last A (qz 0) <= p -> last (pos_axis r d) (qz 0) < 2 * p - nths A 0%nat).
Proof using All.
  intros H LX LY.
  destruct (reach_facts None H LX LY) as (K & s & c & IS & IK & LK & LA & SK & EK & E1 & E2 & Q1 & Q2).
  rewrite (rows_all LA) in Q1, Q2. pose proof (pos_sorted f d HS) as SA.
  pose proof (even_last A dl HE ltac:(intro Q; rewrite Q in LA; cbn in LA; lia)) as EA.
  pose proof (ends_in K LK) as [J0 J1]. pose proof J0 as I0. pose proof J1 as I1.
  apply IK in I0. apply IK in I1. destruct I0 as [I0 K0], I1 as [I1 K1].
  destruct (ends_in A LA) as [A0 A1]. pose proof (end_bounds A _ SA A1) as [AB _].
  assert (nths A 0%nat < last A (qz 0)) as AC.
  { rewrite last_nths by (intro Q; rewrite Q in LA; cbn in LA; lia). apply SA; lia. }
  split; intro P.
  - destruct s; [|cbn in IS; unfold high_plane in IS; exfalso; qlra].
    assert (nths K 0%nat = nths A 0%nat) as EQ.
    { apply Qcle_antisym; [|apply (end_bounds A _ SA I0)]. apply (end_bounds K _ SK). apply IK. split; [exact A0|].
      apply (side_kept A p Low _ IS). cbn. qlra. }
    assert (gap_border A K p Low = nths A 0%nat) as EB by (cbn; rewrite EQ; now destruct (qltb p _)).
    rewrite EB in Q1, Q2. rewrite E1, EQ. cbn [sgn lo_of] in *. qlra.
  - destruct s; [cbn in IS; unfold low_plane in IS; exfalso; qlra|].
    assert (last K (qz 0) = last A (qz 0)) as EQ.
    { apply Qcle_antisym; [apply (end_bounds A _ SA I1)|]. apply (end_bounds K _ SK). apply IK. split; [exact A1|].
      apply (side_kept A p High _ IS). cbn. qlra. }
    assert (gap_border A K p High = last A (qz 0)) as EB by (cbn; rewrite EQ; now destruct (qltb _ p)).
    rewrite EB in Q1, Q2. rewrite E2, EQ. cbn [sgn hi_of] in *. qlra.
Qed.
(** and asking for [m] rows with the plane on an end of the axis adds one less *)
Lemma reach_count m : sf_mirroring ci nearest cubic f d p (Some m) coef GNone = Ok r -> (2 <= length (ax (sg r)))%nat -> (2 <= length (ay (sg r)))%nat ->
  (m <= Z.of_nat (length A))%Z ->
  (p = nths A 0%nat -> nths (pos_axis r d) 0%nat = nths A 0%nat - (qz m - 1) * dl) /\
  (p = last A (qz 0) -> last (pos_axis r d) (qz 0) = last A (qz 0) + (qz m - 1) * dl).
Proof using All.
  intros H LX LY Lm.
  destruct (reach_facts (Some m) H LX LY) as (K & s & c & IS & IK & LK & LA & SK & EK & E1 & E2 & Q1 & Q2).
  assert (mirror_rows A (Some m) = m) as ER.
  { cbn. destruct (Z.ltb_spec (Z.of_nat (length A)) m); [lia|reflexivity]. }
  rewrite ER in Q1, Q2. pose proof (pos_sorted f d HS) as SA.
  pose proof (ends_in K LK) as [J0 J1]. pose proof J0 as I0. pose proof J1 as I1.
  apply IK in I0. apply IK in I1. destruct I0 as [I0 K0], I1 as [I1 K1].
  destruct (ends_in A LA) as [A0 A1].
  assert (nths A 0%nat < last A (qz 0)) as AC.
  { rewrite last_nths by (intro Q; rewrite Q in LA; cbn in LA; lia). apply SA; lia. }
  assert (forall q, gap_border A K p s = q -> q = p -> qn c = qz m - 1) as CM.
  { intros q EB Eq. rewrite EB, Eq in Q1, Q2.
    assert (qn c < qz m) as C1. { apply (qmul_lt_inv _ _ dl Hd). qlra. }
    assert (qz m <= qn c + 1) as C2. { apply (qmul_le_inv _ _ dl Hd). qlra. }
    unfold qn in *. apply (proj1 (qz_lt _ _)) in C1. rewrite <- (qz_add _ 1) in C2. apply (proj1 (qz_le _ _)) in C2.
    rewrite <- (qz_sub m 1). f_equal. lia. }
  split; intro P.
  - destruct s; [|cbn in IS; unfold high_plane in IS; exfalso; qlra].
    assert (nths K 0%nat = nths A 0%nat) as EQ.
    { apply Qcle_antisym; [|apply (end_bounds A _ SA I0)]. apply (end_bounds K _ SK). apply IK. split; [exact A0|].
      apply (side_kept A p Low _ IS). cbn. qlra. }
    rewrite E1, EQ. cbn [lo_of]. rewrite (CM (nths A 0%nat)); [reflexivity| |congruence]. cbn. rewrite EQ. now destruct (qltb p _).
  - destruct s; [cbn in IS; unfold low_plane in IS; exfalso; qlra|].
    assert (last K (qz 0) = last A (qz 0)) as EQ.
    { apply Qcle_antisym; [apply (end_bounds A _ SA I1)|]. apply (end_bounds K _ SK). apply IK. split; [exact A1|].
      apply (side_kept A p High _ IS). cbn. qlra. }
    rewrite E2, EQ. cbn [hi_of]. rewrite (CM (last A (qz 0))); [reflexivity| |congruence]. cbn. rewrite EQ. now destruct (qltb _ p).
Qed.
End Reach.

(** C124 *)
Lemma mirror_reach_inside ci nearest cubic f d p coef r :
  sf_wf f -> sf_clean f -> grid_sorted (sg f) -> nothing_masked f -> evenly (pos_axis f d) ->
  sf_mirroring ci nearest cubic f d p None coef GNone = Ok r -> (2 <= length (ax (sg r)))%nat -> (2 <= length (ay (sg r)))%nat ->
  nths (pos_axis f d) 0%nat < p -> p < last (pos_axis f d) (qz 0) ->
  forall x, In x (pos_axis f d) -> kept_side (pos_axis f d) p x ->
    nths (pos_axis r d) 0%nat <= 2 * p - x /\ 2 * p - x <= last (pos_axis r d) (qz 0).
Proof. intros W C S NM (dl & Hd & HE). now apply (reach_inside ci nearest cubic f d p coef r dl). Qed.
Lemma mirror_reach_border ci nearest cubic f d p coef r :
  sf_wf f -> sf_clean f -> grid_sorted (sg f) -> nothing_masked f -> evenly (pos_axis f d) ->
  sf_mirroring ci nearest cubic f d p None coef GNone = Ok r -> (2 <= length (ax (sg r)))%nat -> (2 <= length (ay (sg r)))%nat ->
  (p <= nths (pos_axis f d) 0%nat -> 2 * p - last (pos_axis f d) (qz 0) < nths (pos_axis r d) 0%nat) /\
  (last (pos_axis f d) (qz 0) <= p -> last (pos_axis r d) (qz 0) < 2 * p - nths (pos_axis f d) 0%nat).
Proof. intros W C S NM (dl & Hd & HE). now apply (reach_border ci nearest cubic f d p coef r dl). Qed.
Lemma mirror_reach_count ci nearest cubic f d p coef r m dl :
  sf_wf f -> sf_clean f -> grid_sorted (sg f) -> nothing_masked f -> 0 < dl -> axis_evenly (pos_axis f d) dl ->
  sf_mirroring ci nearest cubic f d p (Some m) coef GNone = Ok r -> (2 <= length (ax (sg r)))%nat -> (2 <= length (ay (sg r)))%nat ->
  (m <= Z.of_nat (length (pos_axis f d)))%Z ->
  (p = nths (pos_axis f d) 0%nat -> nths (pos_axis r d) 0%nat = nths (pos_axis f d) 0%nat - (qz m - 1) * dl) /\
  (p = last (pos_axis f d) (qz 0) -> last (pos_axis r d) (qz 0) = last (pos_axis f d) (qz 0) + (qz m - 1) * dl).
Proof. intros W C S NM Hd HE. now apply (reach_count ci nearest cubic f d p coef r dl). Qed.
