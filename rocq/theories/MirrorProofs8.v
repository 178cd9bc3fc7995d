(** * MirrorProofs8: the gap at the plane *)
From Verif Require Import Num Res ListLib Arr FieldModel FieldSpec FieldProofs FieldProofs2 FieldProofs3 ScalarFieldModel ScalarProofs
  TemporalModel GradModel GradSpec BlModel MirrorModel MirrorSpec MirrorProofs MirrorProofs2 MirrorProofs3 MirrorProofs4 MirrorProofs5 MirrorProofs6 MirrorProofs7.
Open Scope num_scope.

Lemma gap_none nearest cubic f d : mirror_gap nearest cubic f d GNone = Ok f.
Proof. unfold mirror_gap. now destruct (negb (any_masked f)). Qed.
Lemma gap_split ci nearest cubic f d p n coef gk r : sf_mirroring ci nearest cubic f d p n coef gk = Ok r ->
  exists r0, sf_mirroring ci nearest cubic f d p n coef GNone = Ok r0 /\ mirror_gap nearest cubic r0 d gk = Ok r.
Proof.
  unfold sf_mirroring. intro H. destruct (without_border f) as [g|]; cbn [bind] in *; [|discriminate].
  destruct (mirror_side f g d p) as [[[k s] b]|]; cbn [bind fst snd] in *; [|discriminate].
  destruct (mirror_extend k d s _) as [e|]; cbn [bind] in *; [|discriminate].
  destruct (mirror_loop _ _ _ _ _ e) as [r0|]; cbn [bind] in *; [|discriminate].
  exists r0. split; [apply gap_none|exact H].
Qed.
(** values = v; mask = False *)
Lemma store_lemma f v r : (let* f1 := set_values f v in set_mask_bool f1 false) = Ok r ->
  has_shape v (length (ax (sg f))) (length (ay (sg f))) /\ sg r = sg f /\ uv r = uv f /\
  forall i j, at_ (values r) i j = at_ v i j /\ at_ (msk r) i j = false.
Proof.
  unfold set_values. destruct (shape_is v (sg f)) eqn:E; cbn [bind]; [|discriminate].
  unfold set_mask_bool, set_mask. cbn [sg]. destruct (shape_is (afull _ _ _) (sg f)) eqn:E2; [|discriminate]. intro H. injection H as <-.
  unfold shape_is in E. apply andb_prop in E. destruct E as [E1 E3]. apply Nat.eqb_eq in E1. apply Nat.eqb_eq in E3.
  split; [split; assumption|]. cbn. auto.
Qed.
Lemma some_masked_idx f i j : sf_wf f -> (i < length (ax (sg f)))%nat -> (j < length (ay (sg f)))%nat -> at_ (msk f) i j = true -> any_masked f = true.
Proof.
  intros W L1 L2 E. unfold any_masked. apply existsb_exists. exists true. split; [|reflexivity].
  unfold flatten. apply in_map_iff. exists (i, j). split; [exact E|]. apply in_aidx. destruct W as [_ [M0 M1]]. rewrite M0, M1. lia.
Qed.
Lemma none_masked_idx f : sf_wf f -> any_masked f = false -> nothing_masked f.
Proof.
  intros W A x y v m (i & j & E1 & E2 & E3 & E4). rewrite <- E4.
  destruct (at_ (msk f) i j) eqn:E; [|reflexivity].
  rewrite (some_masked_idx f i j W) in A; [discriminate|eapply nth_error_Some_lt; eassumption|eapply nth_error_Some_lt; eassumption|exact E].
Qed.
(** a stored array shown *)
Lemma stored_shows f v r (P : onum -> onum -> bool -> Prop) : sg r = sg f ->
  (forall i j, at_ (values r) i j = at_ v i j /\ at_ (msk r) i j = false) ->
  forall x y u, (exists i j, nth_error (ax (sg f)) i = Some x /\ nth_error (ay (sg f)) j = Some y /\ at_ v i j = u) ->
  sf_shows r x y u false.
Proof. intros G H x y u (i & j & E1 & E2 & <-). exists i, j. rewrite G. destruct (H i j). auto. Qed.

(** C125: interp='value' *)
Lemma gap_value nearest cubic f d c r : sf_wf f -> sf_clean f -> mirror_gap nearest cubic f d (GValue c) = Ok r ->
  sg r = sg f /\ uv r = uv f /\
  forall x y v m, sf_shows f x y v m -> sf_shows r x y (if m then Some c else v) false.
Proof.
  intros W C H. unfold mirror_gap in H. destruct (any_masked f) eqn:A; cbn [negb] in H.
  - unfold sf_fill_value in H. destruct (store_lemma _ _ _ H) as (_ & G & U & V). split; [exact G|]. split; [exact U|].
    intros x y v m (i & j & E1 & E2 & E3 & E4). exists i, j. rewrite G. destruct (V i j) as [V1 V2].
    repeat (split; [assumption|]). rewrite V1, V2. split; [|reflexivity]. cbn [at_]. rewrite E4. destruct m; [reflexivity|].
    rewrite <- E3. unfold values. cbn [at_]. now rewrite E4.
  - injection H as <-. split; [reflexivity|]. split; [reflexivity|]. intros x y v m Q.
    pose proof (none_masked_idx f W A _ _ _ _ Q). subst m. exact Q.
Qed.
(** interp='nearest' and 'cubic': only masked cells change, and none stays masked *)
Lemma gap_smooth nearest cubic f d gk r : sf_wf f -> sf_clean f -> gk = GNearest \/ gk = GCubic -> mirror_gap nearest cubic f d gk = Ok r ->
  sg r = sg f /\ uv r = uv f /\ nothing_masked r /\ forall x y v, sf_shows f x y v false -> sf_shows r x y v false.
Proof.
  intros W C K H.
  assert (any_masked f = true -> exists w b, (let* f1 := set_values f (plug nearest f w b) in set_mask_bool f1 false) = Ok r) as H'.
  { intro A. unfold mirror_gap in H. rewrite A in H. destruct K as [-> | ->]; cbn [negb] in H; eauto. }
  destruct (any_masked f) eqn:A.
  - destruct (H' eq_refl) as (w & b & E). destruct (store_lemma _ _ _ E) as (_ & G & U & V). split; [exact G|]. split; [exact U|].
    split. { intros x y v m (i & j & _ & _ & _ & <-). apply V. }
    intros x y v (i & j & E1 & E2 & E3 & E4). exists i, j. rewrite G. destruct (V i j) as [V1 V2].
    repeat (split; [assumption|]). rewrite V1, V2. split; [|reflexivity]. cbn [plug at_]. rewrite E4, E3. destruct v; [reflexivity|].
    destruct (C x y None false) as [Q _]; [exists i, j; auto|]. specialize (Q eq_refl). discriminate.
  - unfold mirror_gap in H. rewrite A in H. injection H as <-. repeat (split; [reflexivity|]). split; [now apply none_masked_idx|]. auto.
Qed.

(** ** 'linear' *)
Lemma filter_all_false {A} (P : A -> bool) l : (forall x, In x l -> P x = false) -> filter P l = [].
Proof. induction l as [|x l IH]; intro H; [reflexivity|]. cbn. rewrite H by now left. apply IH. intros; apply H; now right. Qed.
Lemma filter_window (P : nat -> bool) s len a b : (s <= a)%nat -> (a <= b)%nat -> (b <= s + len)%nat ->
  (forall k, (s <= k < s + len)%nat -> (P k = true <-> (a <= k < b)%nat)) -> filter P (seq s len) = seq a (b - a).
Proof.
  revert s a. induction len as [|len IH]; intros s a L1 L2 L3 H.
  - assert (b - a = 0)%nat as -> by lia. reflexivity.
  - cbn [seq filter]. destruct (P s) eqn:E.
    + assert (a = s /\ (s < b)%nat) as [-> Lb]. { apply H in E; lia. }
      rewrite (IH (S s) (S s)); [|lia..|].
      * replace (b - s)%nat with (S (b - S s)) by lia. reflexivity.
      * intros k Lk. rewrite H by lia. lia.
    + destruct (Nat.eq_dec a b) as [->|N].
      { rewrite (filter_all_false P (seq (S s) len)); [now rewrite Nat.sub_diag|]. intros k I. apply in_seq in I.
        destruct (P k) eqn:Ek; [|reflexivity]. apply H in Ek; lia. }
      assert (a <> s) by (intros ->; assert (P s = true) by (apply H; lia); congruence).
      apply IH; [lia..|]. intros k Lk. apply H. lia.
Qed.

(** the indices of a band *)
Lemma band_idx f d a b : sf_wf f -> grid_sorted (sg f) -> (1 <= length (ax (sg f)))%nat -> (1 <= length (ay (sg f)))%nat -> band f d a b ->
  exists ia ib, nth_error (pos_axis f d) ia = Some a /\ nth_error (pos_axis f d) ib = Some b /\ (S ia < ib)%nat /\
    masked_rows f d = seq (S ia) (ib - S ia) /\
    forall i j, (i < length (ax (sg f)))%nat -> (j < length (ay (sg f)))%nat ->
      (at_ (msk f) i j = true <-> (ia < match d with DX => i | DY => j end < ib)%nat).
Proof.
  intros W S LX LY (Ia & Ib & (c & Ic & L1 & L2) & H). pose proof (pos_sorted f d S) as HA.
  apply In_nth_error in Ia. apply In_nth_error in Ib. apply In_nth_error in Ic. destruct Ia as (ia & Ea), Ib as (ib & Eb), Ic as (ic & Ec).
  pose proof (nth_error_Some_lt _ _ _ Ea) as La. pose proof (nth_error_Some_lt _ _ _ Eb) as Lb. pose proof (nth_error_Some_lt _ _ _ Ec) as Lc.
  pose proof (nth_error_nths _ _ _ Ea) as Na. pose proof (nth_error_nths _ _ _ Eb) as Nb. pose proof (nth_error_nths _ _ _ Ec) as Nc.
  assert (ia < ic)%nat as I1 by (apply (increasing_lt_inv _ _ _ HA); [assumption..|congruence]).
  assert (ic < ib)%nat as I2 by (apply (increasing_lt_inv _ _ _ HA); [assumption..|congruence]).
  exists ia, ib. split; [exact Ea|]. split; [exact Eb|]. split; [lia|].
  assert (forall i j, (i < length (ax (sg f)))%nat -> (j < length (ay (sg f)))%nat ->
      (at_ (msk f) i j = true <-> (ia < match d with DX => i | DY => j end < ib)%nat)) as HM.
  { intros i j Li Lj. rewrite (H _ _ _ _ (shows_idx f i j (conj Li Lj))).
    assert (coord d (nths (ax (sg f)) i) (nths (ay (sg f)) j) = nths (pos_axis f d) match d with DX => i | DY => j end) as -> by now destruct d.
    assert (match d with DX => i | DY => j end < length (pos_axis f d))%nat as Lk by now destruct d.
    set (k := match d with DX => i | DY => j end) in *. clearbody k. rewrite <- Na, <- Nb.
    split; intros [Q1 Q2]; (split; [|]);
      [apply (increasing_lt_inv _ _ _ HA) in Q1|apply (increasing_lt_inv _ _ _ HA) in Q2|apply HA|apply HA]; assumption || lia. }
  split; [|exact HM]. unfold masked_rows. apply filter_window; [lia|lia| |].
  - lia.
  - intros k Lk. destruct d; cbn [pos_axis] in Lk; rewrite HM; lia.
Qed.
(** the cells, with the coordinate along the direction first *)
Definition cell_at (f : sfield) (d : pdir) (k l : nat) : Prop :=
  match d with DX => (k < length (ax (sg f)) /\ l < length (ay (sg f)))%nat | DY => (l < length (ax (sg f)) /\ k < length (ay (sg f)))%nat end.

(** C125: in direction y, the rows of the gap are on the line between the two rows around them *)
Lemma gap_linear_y nearest cubic f a b dl r : sf_wf f -> sf_clean f -> grid_sorted (sg f) -> (1 <= length (ax (sg f)))%nat ->
  0 < dl -> axis_evenly (ay (sg f)) dl -> band f DY a b -> mirror_gap nearest cubic f DY GLinear = Ok r ->
  sg r = sg f /\ uv r = uv f /\
  (forall x y v, sf_shows f x y v false -> sf_shows r x y v false) /\
  (forall x y va vb, In y (ay (sg f)) -> a < y -> y < b -> sf_shows f x a (Some va) false -> sf_shows f x b (Some vb) false ->
     exists v, sf_shows r x y (Some v) false /\ (v - va) * (b - a) = (vb - va) * (y - a)).
Proof.
  intros W C S LX D HE HB H. pose proof HB as (Ia0 & _).
  assert (1 <= length (ay (sg f)))%nat as LY. { cbn in Ia0. destruct (ay (sg f)); [destruct Ia0|cbn; lia]. }
  destruct (band_idx f DY a b W S LX LY HB) as (ia & ib & Ea & Eb & L & ER & HM). cbn [pos_axis] in *.
  pose proof (nth_error_Some_lt _ _ _ Ea) as La. pose proof (nth_error_Some_lt _ _ _ Eb) as Lb.
  unfold mirror_gap in H. rewrite (some_masked_idx f 0 (Datatypes.S ia) W) in H; [|lia|lia|apply HM; lia]. cbn [negb] in H.
  unfold linear_rows in H. rewrite ER in H. rewrite seq_length in H. destruct (ib - Datatypes.S ia)%nat as [|n] eqn:En; [lia|]. cbn [seq] in H. cbn [pos_axis] in H.
  destruct (Nat.leb_spec (length (ay (sg f))) (Datatypes.S ia + Datatypes.S n)) as [Q|_]; [lia|]. cbn [Nat.eqb bind] in H.
  destruct (store_lemma _ _ _ H) as (_ & G & U & V). clear H. split; [exact G|]. split; [exact U|].
  replace (Datatypes.S ia - 1)%nat with ia in V by lia. replace (Datatypes.S ia + Datatypes.S n)%nat with ib in V by lia.
  assert (forall i j, at_ (values r) i j = if (Nat.leb (Datatypes.S ia) j && Nat.ltb j ib)%bool
     then between_lin (at_ (values f) i ia) (at_ (values f) i ib) (Datatypes.S n) (j - Datatypes.S ia) else at_ (values f) i j) as V'.
  { intros i j. destruct (V i j) as [-> _]. cbn [fill_rows at_ row_at]. replace (Datatypes.S ia + Datatypes.S n)%nat with ib by lia. reflexivity. }
  split.
  - intros x y v (i & j & E1 & E2 & E3 & E4). exists i, j. rewrite G. repeat (split; [assumption|]). split; [|apply V].
    rewrite V'. pose proof (nth_error_Some_lt _ _ _ E1) as Li. pose proof (nth_error_Some_lt _ _ _ E2) as Lj.
    destruct (Nat.leb_spec (Datatypes.S ia) j) as [Q1|Q1]; cbn [andb]; [|exact E3].
    destruct (Nat.ltb_spec j ib) as [Q2|Q2]; [|exact E3].
    assert (at_ (msk f) i j = true) by (apply HM; lia). congruence.
  - intros x y va vb Iy Y1 Y2 (i & ja & E1 & E2 & E3 & E4) (i' & jb & F1 & F2 & F3 & F4).
    assert (i' = i) as ->. { apply (increasing_inj (ax (sg f))); try apply S; try (eapply nth_error_Some_lt; eassumption).
      rewrite (nth_error_nths _ _ _ E1), (nth_error_nths _ _ _ F1). reflexivity. }
    assert (ja = ia) as ->. { apply (increasing_inj (ay (sg f))); try apply S; try (eapply nth_error_Some_lt; eassumption).
      rewrite (nth_error_nths _ _ _ E2), (nth_error_nths _ _ _ Ea). reflexivity. }
    assert (jb = ib) as ->. { apply (increasing_inj (ay (sg f))); try apply S; try (eapply nth_error_Some_lt; eassumption).
      rewrite (nth_error_nths _ _ _ F2), (nth_error_nths _ _ _ Eb). reflexivity. }
    apply In_nth_error in Iy. destruct Iy as (j & Ey). pose proof (nth_error_Some_lt _ _ _ Ey) as Lj.
    pose proof (nth_error_nths _ _ _ Ea) as Na. pose proof (nth_error_nths _ _ _ Eb) as Nb. pose proof (nth_error_nths _ _ _ Ey) as Ny.
    assert (ia < j)%nat as J1 by (apply (increasing_lt_inv _ _ _ (proj2 S)); [assumption..|congruence]).
    assert (j < ib)%nat as J2 by (apply (increasing_lt_inv _ _ _ (proj2 S)); [assumption..|congruence]).
    exists (va + (vb - va) * qn (j - Datatypes.S ia + 1) / qn (Datatypes.S n + 1)).
    split.
    + exists i, j. rewrite G. repeat (split; [assumption|]). split; [|apply V]. rewrite V'.
      rewrite (proj2 (Nat.leb_le _ _)) by lia. rewrite (proj2 (Nat.ltb_lt _ _)) by lia. cbn [andb]. rewrite E3, F3. reflexivity.
    + rewrite (even_nth _ dl _ HE) in Na by assumption. rewrite (even_nth _ dl _ HE) in Nb by assumption. rewrite (even_nth _ dl _ HE) in Ny by assumption.
      assert (b - a = qn (Datatypes.S n + 1) * dl) as BA.
      { rewrite <- Na, <- Nb. replace ib with (ia + (Datatypes.S n + 1))%nat by lia. unfold qn. rewrite (Nat2Z.inj_add ia), qz_add. qring. }
      assert (y - a = qn (j - Datatypes.S ia + 1) * dl) as YA.
      { rewrite <- Na, <- Ny. replace j with (ia + (j - Datatypes.S ia + 1))%nat at 1 by lia. unfold qn. rewrite (Nat2Z.inj_add ia), qz_add. qring. }
      rewrite BA, YA.
      assert (qn (Datatypes.S n + 1) <> 0) as NZ. { apply qgt_neq. unfold qn. apply (proj2 (qz_lt 0 _)). lia. }
      set (w := qn (Datatypes.S n + 1)) in *. set (t := qn (j - Datatypes.S ia + 1)).
      pose proof (qdiv_mul ((vb - va) * t) w NZ) as Q. clearbody w t. set (z := (vb - va) * t / w) in *. clearbody z.
      transitivity (z * w * dl); [qring|]. rewrite Q. qring.
Qed.
(** in direction x, the row before the gap is lost and the gap is not filled: both are left without value, and not masked *)
Lemma gap_linear_x nearest cubic f a b r : sf_wf f -> sf_clean f -> grid_sorted (sg f) -> (1 <= length (ay (sg f)))%nat ->
  band f DX a b -> nths (ax (sg f)) 0%nat < a -> mirror_gap nearest cubic f DX GLinear = Ok r ->
  sg r = sg f /\ forall x y, In x (ax (sg f)) -> In y (ay (sg f)) -> a <= x -> x < b -> sf_shows r x y None false.
Proof.
  intros W C S LY HB HF H. pose proof HB as (Ia0 & _).
  assert (1 <= length (ax (sg f)))%nat as LX. { cbn in Ia0. destruct (ax (sg f)); [destruct Ia0|cbn; lia]. }
  destruct (band_idx f DX a b W S LX LY HB) as (ia & ib & Ea & Eb & L & ER & HM). cbn [pos_axis] in *.
  pose proof (nth_error_Some_lt _ _ _ Ea) as La. pose proof (nth_error_Some_lt _ _ _ Eb) as Lb.
  destruct ia as [|ia]. { pose proof (nth_error_nths _ _ _ Ea). exfalso. qlra. }
  unfold mirror_gap in H. rewrite (some_masked_idx f (Datatypes.S (Datatypes.S ia)) 0 W) in H; [|lia|lia|apply HM; lia]. cbn [negb] in H.
  unfold linear_rows in H. rewrite ER in H. rewrite seq_length in H. destruct (ib - Datatypes.S (Datatypes.S ia))%nat as [|n] eqn:En; [lia|]. cbn [seq] in H. cbn [pos_axis] in H.
  destruct (Nat.leb_spec (length (ax (sg f))) (ia + 1 + Datatypes.S n)) as [Q|_]; [lia|]. cbn [Nat.eqb bind] in H.
  destruct (store_lemma _ _ _ H) as (_ & G & U & V). clear H. split; [exact G|].
  intros x y Ix Iy X1 X2. apply In_nth_error in Ix. apply In_nth_error in Iy. destruct Ix as (i & E1), Iy as (j & E2).
  pose proof (nth_error_Some_lt _ _ _ E1) as Li. pose proof (nth_error_Some_lt _ _ _ E2) as Lj.
  pose proof (nth_error_nths _ _ _ Ea) as Na. pose proof (nth_error_nths _ _ _ Eb) as Nb. pose proof (nth_error_nths _ _ _ E1) as Nx.
  assert (i < ib)%nat as J2 by (apply (increasing_lt_inv _ _ _ (proj1 S)); [assumption..|congruence]).
  assert (Datatypes.S ia <= i)%nat as J1.
  { destruct (Nat.lt_ge_cases i (Datatypes.S ia)) as [Q|Q]; [|exact Q].
    pose proof (proj1 S _ _ Q La) as R. rewrite Na, Nx in R. exfalso. qlra. }
  exists i, j. rewrite G. repeat (split; [assumption|]). split; [|apply V].
  destruct (V i j) as [-> _]. cbn [fill_rows at_ row_at].
  assert (at_ (values f) (ia + 1 + Datatypes.S n) j = None) as EV.
  { replace (ia + 1 + Datatypes.S n)%nat with (ib - 1)%nat by lia. unfold values. cbn [at_].
    rewrite (proj2 (HM (ib - 1)%nat j ltac:(lia) Lj)) by lia. reflexivity. }
  rewrite EV. rewrite (proj2 (Nat.leb_le _ _)) by lia.
  destruct (Nat.ltb_spec i (ia + 1 + Datatypes.S n)) as [Q|Q]; cbn [andb].
  - unfold between_lin. now destruct (at_ (values f) ia j).
  - replace i with (ia + 1 + Datatypes.S n)%nat by lia. exact EV.
Qed.
