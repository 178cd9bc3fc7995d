From Verif Require Import Num Res ListLib Arr FieldModel ScalarFieldModel VectorFieldModel FieldSpec FieldProofs.

(** ** A sorted field is determined by what it shows *)
Lemma increasing_ext l : forall m, increasing l -> increasing m -> (forall x, In x l <-> In x m) -> l = m.
Proof.
  induction l as [|x l IH]; intros m Hl Hm H.
  - destruct m as [|y m]; [reflexivity|]. exfalso. apply (H y). now left.
  - destruct m as [|y m]; [exfalso; apply (H x); now left|].
    apply increasing_cons in Hl, Hm. destruct Hl as [Hl Lx], Hm as [Hm Ly].
    assert (x = y) as ->.
    { destruct (proj1 (H x) (or_introl eq_refl)) as [E|E]; [congruence|].
      destruct (proj2 (H y) (or_introl eq_refl)) as [E2|E2]; [congruence|].
      apply Ly in E. apply Lx in E2. exfalso. qlra. }
    f_equal. apply IH; auto. intro z. split; intro Hz.
    + destruct (proj1 (H z) (or_intror Hz)) as [E|E]; [|exact E]. subst z.
      apply Lx in Hz. exfalso. qlra.
    + destruct (proj2 (H z) (or_intror Hz)) as [E|E]; [|exact E]. subst z.
      apply Ly in Hz. exfalso. qlra.
Qed.

Lemma at_pos_axes {A} X Y (a b : arr A) X' Y' :
  increasing X -> increasing Y -> increasing X' -> increasing Y' ->
  X <> [] -> Y <> [] -> X' <> [] -> Y' <> [] ->
  (forall x y v, at_pos X Y a x y v <-> at_pos X' Y' b x y v) ->
  X = X' /\ Y = Y' /\ forall i j, i < length X -> j < length Y -> at_ a i j = at_ b i j.
Proof.
  intros HX HY HX' HY' X0 Y0 X0' Y0' H.
  assert (Gx : forall (P Q : list num) (c : arr A), Q <> [] -> forall x, In x P <-> exists y v, at_pos P Q c x y v).
  { intros P Q c Q0 x. split.
    - intro Hin. apply In_nth_error in Hin. destruct Hin as [i Hi]. destruct Q as [|q Q]; [congruence|].
      exists q, (at_ c i 0). exists i, 0. auto.
    - intros (y & v & i & j & Hi & _). eapply nth_error_In; eauto. }
  assert (Gy : forall (P Q : list num) (c : arr A), P <> [] -> forall y, In y Q <-> exists x v, at_pos P Q c x y v).
  { intros P Q c P0 x. split.
    - intro Hin. apply In_nth_error in Hin. destruct Hin as [i Hi]. destruct P as [|q P]; [congruence|].
      exists q, (at_ c 0 i). exists 0, i. auto.
    - intros (y & v & i & j & _ & Hj & _). eapply nth_error_In; eauto. }
  assert (X = X') as <-.
  { apply increasing_ext; auto. intro x. rewrite (Gx X Y a Y0), (Gx X' Y' b Y0').
    split; intros (y & v & K); exists y, v; now apply H. }
  assert (Y = Y') as <-.
  { apply increasing_ext; auto. intro y. rewrite (Gy X Y a X0), (Gy X Y' b X0).
    split; intros (x & v & K); exists x, v; now apply H. }
  split; [reflexivity|]. split; [reflexivity|]. intros i j Hi Hj.
  assert (K : at_pos X Y a (nths X i) (nths Y j) (at_ a i j)).
  { exists i, j. repeat split; now apply nths_nth_error. }
  apply H in K. destruct K as (i' & j' & K1 & K2 & K3).
  pose proof (nth_error_Some_lt _ _ _ K1). pose proof (nth_error_Some_lt _ _ _ K2).
  apply nth_error_nths in K1, K2. apply increasing_inj in K1, K2; auto. subst. auto.
Qed.

Lemma sf_shows_determines f h :
  sf_wf f -> sf_wf h -> grid_sorted (sg f) -> grid_sorted (sg h) ->
  ax (sg f) <> [] -> ay (sg f) <> [] -> ax (sg h) <> [] -> ay (sg h) <> [] ->
  ux (sg f) = ux (sg h) -> uy (sg f) = uy (sg h) -> uv f = uv h ->
  (forall x y v m, sf_shows f x y v m <-> sf_shows h x y v m) -> sf_same f h.
Proof.
  intros [[R0 R1] [M0 M1]] [[R0' R1'] [M0' M1']] [HX HY] [HX' HY'] X0 Y0 X0' Y0' U1 U2 U3 H.
  destruct (at_pos_axes (ax (sg f)) (ay (sg f)) (zip2 (values f) (msk f)) (zip2 (values h) (msk h))
              (ax (sg h)) (ay (sg h))) as (E1 & E2 & E3); auto.
  { intros x y [v m]. rewrite <- !sf_shows_at. apply H. }
  unfold sf_same. repeat split; auto; simpl; try congruence.
  - intros i j Hi Hj. specialize (E3 i j ltac:(congruence) ltac:(congruence)).
    unfold zip2, amap2 in E3. cbn [at_] in E3. injection E3 as E3 _. exact E3.
  - intros i j Hi Hj. specialize (E3 i j ltac:(congruence) ltac:(congruence)).
    unfold zip2, amap2 in E3. cbn [at_] in E3. injection E3 as _ E3. exact E3.
Qed.

Lemma vf_shows_determines f h :
  vf_wf f -> vf_wf h -> grid_sorted (vg f) -> grid_sorted (vg h) ->
  ax (vg f) <> [] -> ay (vg f) <> [] -> ax (vg h) <> [] -> ay (vg h) <> [] ->
  ux (vg f) = ux (vg h) -> uy (vg f) = uy (vg h) -> vuv f = vuv h ->
  (forall x y vx vy m, vf_shows f x y vx vy m <-> vf_shows h x y vx vy m) -> vf_same f h.
Proof.
  intros ([R0 R1] & [S0 S1] & [M0 M1]) ([R0' R1'] & [S0' S1'] & [M0' M1']) [HX HY] [HX' HY'] X0 Y0 X0' Y0' U1 U2 U3 H.
  destruct (at_pos_axes (ax (vg f)) (ay (vg f)) (zip3 (cx f) (cy f) (vmsk f)) (zip3 (cx h) (cy h) (vmsk h))
              (ax (vg h)) (ay (vg h))) as (E1 & E2 & E3); auto.
  { intros x y [[vx vy] m]. rewrite <- !vf_shows_at. apply H. }
  unfold vf_same. repeat split; auto; simpl; try congruence;
  intros i j Hi Hj; specialize (E3 i j ltac:(congruence) ltac:(congruence));
  unfold zip3, amap2 in E3; cbn [at_] in E3; injection E3 as E3a E3b E3c; auto.
Qed.

(** ** One rotation *)
Definition rot_axes (k : nat) (X Y : list num) : list num * list num :=
  match k with
  | 0 => (X, Y)
  | 1 => (map Qcopp (rev Y), X)
  | 2 => (map Qcopp (rev X), map Qcopp (rev Y))
  | _ => (Y, map Qcopp (rev X))
  end.

Lemma nth_error_oprev Y i y :
  nth_error (map Qcopp (rev Y)) i = Some (- y)%num <-> i < length Y /\ nth_error Y (length Y - 1 - i) = Some y.
Proof.
  split.
  - intro H. pose proof (nth_error_Some_lt _ _ _ H) as L. rewrite map_length, rev_length in L. split; [exact L|].
    apply nth_error_map_inv in H. destruct H as (z & Hz & E). rewrite nth_error_rev in Hz by exact L.
    rewrite Hz. f_equal. apply (f_equal Qcopp) in E. rewrite !Qcopp_involutive in E. congruence.
  - intros [L H]. rewrite nth_error_map, nth_error_rev by exact L. rewrite H. reflexivity.
Qed.
Lemma nth_error_oprev' Y i y :
  nth_error (map Qcopp (rev Y)) i = Some y <-> i < length Y /\ nth_error Y (length Y - 1 - i) = Some (- y)%num.
Proof. rewrite <- nth_error_oprev. rewrite Qcopp_involutive. reflexivity. Qed.

Lemma at_pos_rot {A} k X Y (a : arr A) x y v : k < 4 -> has_shape a (length X) (length Y) ->
  (at_pos (fst (rot_axes k X Y)) (snd (rot_axes k X Y)) (rot90 k a) (fst (turn k (x, y))) (snd (turn k (x, y))) v
   <-> at_pos X Y a x y v).
Proof.
  intros Hk [S0 S1]. destruct k as [|[|[|[|k]]]]; [| | | |lia]; cbn [rot_axes turn fst snd]; unfold at_pos.
  - reflexivity.
  - split.
    + intros (i & j & H1 & H2 & H3). apply nth_error_oprev in H1. destruct H1 as [L H1].
      exists j, (length Y - 1 - i). repeat split; auto. rewrite <- H3. simpl. now rewrite S1.
    + intros (i & j & H1 & H2 & H3). pose proof (nth_error_Some_lt _ _ _ H2).
      exists (length Y - 1 - j), i. rewrite nth_error_oprev.
      replace (length Y - 1 - (length Y - 1 - j)) with j by lia. repeat split; auto; try lia.
      simpl. rewrite S1. rewrite <- H3. f_equal. lia.
  - split.
    + intros (i & j & H1 & H2 & H3). apply nth_error_oprev in H1, H2. destruct H1 as [L H1], H2 as [L2 H2].
      exists (length X - 1 - i), (length Y - 1 - j). repeat split; auto. rewrite <- H3. simpl. now rewrite S1, S0.
    + intros (i & j & H1 & H2 & H3).
      pose proof (nth_error_Some_lt _ _ _ H1). pose proof (nth_error_Some_lt _ _ _ H2).
      exists (length X - 1 - i), (length Y - 1 - j). rewrite !nth_error_oprev.
      replace (length Y - 1 - (length Y - 1 - j)) with j by lia.
      replace (length X - 1 - (length X - 1 - i)) with i by lia. repeat split; auto; try lia.
      simpl. rewrite S1, S0. rewrite <- H3. f_equal; lia.
  - split.
    + intros (i & j & H1 & H2 & H3). apply nth_error_oprev in H2. destruct H2 as [L2 H2].
      rewrite Qcopp_involutive in H1.
      exists (length X - 1 - j), i. repeat split; auto. rewrite <- H3. simpl. now rewrite S0.
    + intros (i & j & H1 & H2 & H3).
      pose proof (nth_error_Some_lt _ _ _ H1).
      exists j, (length X - 1 - i). rewrite nth_error_oprev. rewrite Qcopp_involutive.
      replace (length X - 1 - (length X - 1 - i)) with i by lia. repeat split; auto; try lia.
      simpl. rewrite S0. rewrite <- H3. f_equal; lia.
Qed.

Lemma rot90_shape {A} k (a : arr A) n m : has_shape a n m ->
  has_shape (rot90 k a) (if Nat.even k then n else m) (if Nat.even k then m else n) \/ 4 <= k.
Proof.
  intros [H0 H1]. destruct k as [|[|[|[|k]]]]; [left..|right; lia]; simpl; split; simpl; auto.
Qed.

Lemma rot_fix_incr l : increasing l -> rot_fix l = l.
Proof.
  intro H. unfold rot_fix. destruct l as [|a l]; [reflexivity|].
  destruct (qltb_spec (last (a :: l) (qz 0)) (nths (a :: l) 0)) as [C|C]; [|reflexivity].
  pose proof (first_le_last (a :: l) H ltac:(discriminate)). exfalso. qlra.
Qed.
Lemma rot_fix_rev l : increasing l -> 2 <= length l -> rot_fix (rev l) = map Qcopp (rev l).
Proof.
  intros H L. unfold rot_fix. assert (rev l <> []) as Hne.
  { intro E. apply (f_equal (@length num)) in E. rewrite rev_length in E. simpl in E. lia. }
  rewrite last_nths by exact Hne. rewrite rev_length, !nths_rev by lia.
  assert (qltb (nths l (length l - 1 - (length l - 1))) (nths l (length l - 1 - 0)) = true) as ->; [|reflexivity].
  apply qltb_lt. apply H; lia.
Qed.

Lemma quarter_mod360 a : quarter (a mod 360) = quarter a.
Proof. unfold quarter. now rewrite Z.mod_mod by lia. Qed.
Lemma quarter_90 k : quarter (90 * k) = Z.to_nat (k mod 4).
Proof.
  unfold quarter. f_equal. replace 360%Z with (90 * 4)%Z by lia.
  rewrite Z.mul_mod_distr_l by lia. rewrite Z.mul_comm, Z.div_mul by lia. reflexivity.
Qed.
Lemma quarter_lt a : quarter a < 4.
Proof.
  unfold quarter. pose proof (Z.mod_pos_bound a 360 ltac:(lia)).
  assert (0 <= (a mod 360) / 90)%Z by (apply Z.div_pos; lia).
  assert ((a mod 360) / 90 < 4)%Z by (apply Z.div_lt_upper_bound; lia). lia.
Qed.
Lemma mod360_mod90 a : ((a mod 360) mod 90 = a mod 90)%Z.
Proof. rewrite (Z.mod_eq a 360) by lia. replace (a - 360 * (a / 360))%Z with (a + (- 4 * (a / 360)) * 90)%Z by lia. now rewrite Z_mod_plus_full. Qed.

Lemma grid_rotate_ok g angle : (angle mod 90 = 0)%Z -> grid_sorted g -> 2 <= length (ax g) -> 2 <= length (ay g) ->
  grid_rotate g (angle mod 360) =
  Ok (mkgrid (fst (rot_axes (quarter angle) (ax g) (ay g))) (snd (rot_axes (quarter angle) (ax g) (ay g)))
             (if Nat.even (quarter angle) then ux g else uy g)
             (if Nat.even (quarter angle) then uy g else ux g)).
Proof.
  intros Ha [HX HY] LX LY. unfold grid_rotate. rewrite mod360_mod90, Ha, quarter_mod360. cbn [Z.eqb negb guard].
  pose proof (quarter_lt angle) as Q. destruct (quarter angle) as [|[|[|[|q]]]]; [| | | |lia];
  cbn [rot_axes fst snd Nat.even ax ay ux uy]; rewrite ?rev_length;
  (assert (Nat.eqb (length (ax g)) 0 = false) as -> by (apply Nat.eqb_neq; lia));
  (assert (Nat.eqb (length (ay g)) 0 = false) as -> by (apply Nat.eqb_neq; lia)); cbn [orb guard];
  rewrite ?rot_fix_rev by assumption; rewrite ?rot_fix_incr by assumption; destruct g; reflexivity.
Qed.

Lemma rot_axes_sorted k X Y : k < 4 -> increasing X -> increasing Y ->
  increasing (fst (rot_axes k X Y)) /\ increasing (snd (rot_axes k X Y)).
Proof.
  intros Hk HX HY. destruct k as [|[|[|[|k]]]]; [| | | |lia]; cbn [rot_axes fst snd]; split; auto using increasing_rev_neg.
Qed.
Lemma rot_axes_length k X Y : k < 4 ->
  length (fst (rot_axes k X Y)) = (if Nat.even k then length X else length Y) /\
  length (snd (rot_axes k X Y)) = (if Nat.even k then length Y else length X).
Proof.
  intros Hk. destruct k as [|[|[|[|k]]]]; [| | | |lia]; cbn [rot_axes fst snd Nat.even]; rewrite ?map_length, ?rev_length; auto.
Qed.

Lemma sf_rotate_lemma f angle :
  sf_wf f -> grid_sorted (sg f) -> 2 <= length (ax (sg f)) -> 2 <= length (ay (sg f)) ->
  (angle mod 90 = 0)%Z ->
  exists f', sf_rotate f angle = Ok f' /\ sf_wf f' /\ grid_sorted (sg f') /\
    2 <= length (ax (sg f')) /\ 2 <= length (ay (sg f')) /\
    (forall x y v m, sf_shows f' (fst (turn (quarter angle) (x, y))) (snd (turn (quarter angle) (x, y))) v m
                     <-> sf_shows f x y v m) /\
    ux (sg f') = (if Nat.even (quarter angle) then ux (sg f) else uy (sg f)) /\
    uy (sg f') = (if Nat.even (quarter angle) then uy (sg f) else ux (sg f)) /\
    uv f' = uv f.
Proof.
  intros [[R0 R1] [M0 M1]] Hs LX LY Ha. unfold sf_rotate. rewrite Ha. cbn [Z.eqb negb guard].
  rewrite grid_rotate_ok by assumption. cbn [bind]. eexists. split; [reflexivity|].
  pose proof (quarter_lt angle) as Q. set (k := quarter angle) in *.
  destruct Hs as [HX HY].
  pose proof (rot_axes_length k (ax (sg f)) (ay (sg f)) Q) as [L1 L2].
  assert (S1 : has_shape (values f) (length (ax (sg f))) (length (ay (sg f)))) by (split; simpl; assumption).
  assert (S2 : has_shape (msk f) (length (ax (sg f))) (length (ay (sg f)))) by (split; assumption).
  split; [|split; [|split; [|split; [|split; [|split; [|split]]]]]]; cbn [sg ax ay ux uy]; auto.
  - unfold sf_wf. cbn [sg ax ay raw msk]. rewrite L1, L2.
    destruct (rot90_shape k _ _ _ S1) as [P|P]; [|lia]. destruct (rot90_shape k _ _ _ S2) as [P2|P2]; [|lia]. auto.
  - apply rot_axes_sorted; auto.
  - rewrite L1. destruct (Nat.even k); assumption.
  - rewrite L2. destruct (Nat.even k); assumption.
  - intros x y v m. rewrite !sf_shows_at. cbn [sg ax ay msk].
    rewrite <- (at_pos_rot k (ax (sg f)) (ay (sg f)) (zip2 (values f) (msk f))); [|exact Q|split; simpl; assumption].
    apply at_pos_ext. intros i j Hi Hj.
    destruct k as [|[|[|[|k']]]]; [| | | |lia]; unfold zip2, amap2, values; simpl; rewrite ?R0, ?R1, ?M0, ?M1;
    match goal with |- context [if ?b then _ else _] => destruct b end; reflexivity.
Qed.

Lemma sf_rotate_err f angle : (angle mod 90 <> 0)%Z -> sf_rotate f angle = Err ValueErr.
Proof.
  intro H. unfold sf_rotate. assert ((angle mod 90 =? 0)%Z = false) as -> by (now apply Z.eqb_neq). reflexivity.
Qed.

Lemma oturn_comp k (a b : onum) : k < 4 ->
  osub (oscale (cos90 k) a) (oscale (sin90 k) b) = (match a, b with Some _, Some _ => fst (oturn k (a, b)) | _, _ => None end) /\
  oadd (oscale (cos90 k) b) (oscale (sin90 k) a) = (match a, b with Some _, Some _ => snd (oturn k (a, b)) | _, _ => None end).
Proof.
  intro Hk. destruct k as [|[|[|[|k]]]]; [| | | |lia];
  destruct a as [a|], b as [b|]; cbn; split; try reflexivity; f_equal; change (qz 0) with (0%num); qlra.
Qed.


Lemma oturn_both k a b : both_nan a b -> k < 4 ->
  oturn k (a, b) = match a, b with Some _, Some _ => oturn k (a, b) | _, _ => (None, None) end.
Proof.
  intros H Hk. destruct a as [a|], b as [b|]; try reflexivity.
  - destruct H as [_ H]. now specialize (H eq_refl).
  - destruct H as [H _]. now specialize (H eq_refl).
  - destruct k as [|[|[|[|k]]]]; [| | | |lia]; reflexivity.
Qed.

Lemma oturn_inj k p q : oturn k p = oturn k q -> p = q.
Proof.
  assert (I1 : forall p q, oturn1 p = oturn1 q -> p = q).
  { intros [a b] [c d] H. unfold oturn1 in H. simpl in H. injection H as H1 H2. f_equal; [exact H2|].
    destruct b as [b|], d as [d|]; simpl in H1; try discriminate; [|reflexivity].
    injection H1 as H1. f_equal. apply Q_eq_Qc.
    assert (Qcopp b = Qcopp d) as E by (apply Q_eq_Qc; simpl; rewrite H1; reflexivity).
    apply (f_equal Qcopp) in E. rewrite !Qcopp_involutive in E. subst; reflexivity. }
  induction k as [|k IH]; simpl; intro H; [exact H|]. apply IH, I1, H.
Qed.

Lemma vf_rotate_lemma f angle :
  vf_wf f -> vf_nan_ok f -> grid_sorted (vg f) -> 2 <= length (ax (vg f)) -> 2 <= length (ay (vg f)) ->
  (angle mod 90 = 0)%Z ->
  exists f', vf_rotate f angle = Ok f' /\ vf_wf f' /\ grid_sorted (vg f') /\
    2 <= length (ax (vg f')) /\ 2 <= length (ay (vg f')) /\
    (forall x y vx vy m,
       vf_shows f' (fst (turn (quarter angle) (x, y))) (snd (turn (quarter angle) (x, y)))
                   (fst (oturn (quarter angle) (vx, vy))) (snd (oturn (quarter angle) (vx, vy))) m
       <-> vf_shows f x y vx vy m) /\
    ux (vg f') = (if Nat.even (quarter angle) then ux (vg f) else uy (vg f)) /\
    uy (vg f') = (if Nat.even (quarter angle) then uy (vg f) else ux (vg f)) /\
    vuv f' = vuv f.
Proof.
  intros ([R0 R1] & [T0 T1] & [M0 M1]) Hn Hs LX LY Ha. unfold vf_rotate. rewrite Ha. cbn [Z.eqb negb guard].
  rewrite grid_rotate_ok by assumption. cbn [bind]. eexists. split; [reflexivity|].
  pose proof (quarter_lt angle) as Q. set (k := quarter angle) in *.
  destruct Hs as [HX HY].
  pose proof (rot_axes_length k (ax (vg f)) (ay (vg f)) Q) as [L1 L2].
  assert (S1 : has_shape (cx f) (length (ax (vg f))) (length (ay (vg f)))) by (split; assumption).
  assert (S2 : has_shape (cy f) (length (ax (vg f))) (length (ay (vg f)))) by (split; assumption).
  assert (S3 : has_shape (vmsk f) (length (ax (vg f))) (length (ay (vg f)))) by (split; assumption).
  split; [|split; [|split; [|split; [|split; [|split; [|split]]]]]]; cbn [vg ax ay ux uy]; auto.
  - unfold vf_wf. cbn [vg ax ay cx cy vmsk]. rewrite L1, L2.
    destruct (rot90_shape k _ _ _ S1) as [P|P]; [|lia]. destruct (rot90_shape k _ _ _ S2) as [P2|P2]; [|lia].
    destruct (rot90_shape k _ _ _ S3) as [P3|P3]; [|lia].
    split; [|split]; auto; split; simpl; apply P || apply P2.
  - apply rot_axes_sorted; auto.
  - rewrite L1. destruct (Nat.even k); assumption.
  - rewrite L2. destruct (Nat.even k); assumption.
  - intros x y vx vy m. rewrite !vf_shows_at. cbn [vg ax ay vmsk cx cy].
    set (turned := amap (fun t => let '(p, q, b) := t in (fst (oturn k (p, q)), snd (oturn k (p, q)), b))
                        (zip3 (cx f) (cy f) (vmsk f))).
    assert (Hsh : has_shape turned (length (ax (vg f))) (length (ay (vg f)))) by (split; simpl; assumption).
    transitivity (at_pos (ax (vg f)) (ay (vg f)) turned x y (fst (oturn k (vx, vy)), snd (oturn k (vx, vy)), m)).
    + rewrite <- (at_pos_rot k (ax (vg f)) (ay (vg f)) turned) by assumption.
      apply at_pos_ext. intros i j Hi Hj. rewrite L1 in Hi. rewrite L2 in Hj. unfold zip3, turned, amap2, amap.
      cbn [at_].
      assert (G : forall a b, a < length (ax (vg f)) -> b < length (ay (vg f)) ->
        (osub (oscale (cos90 k) (at_ (cx f) a b)) (oscale (sin90 k) (at_ (cy f) a b)),
         oadd (oscale (cos90 k) (at_ (cy f) a b)) (oscale (sin90 k) (at_ (cx f) a b))) =
        oturn k (at_ (cx f) a b, at_ (cy f) a b)).
      { intros a b La Lb. destruct (oturn_comp k (at_ (cx f) a b) (at_ (cy f) a b) Q) as [E1 E2].
        rewrite E1, E2, (oturn_both k _ _ (Hn a b La Lb) Q).
        destruct (at_ (cx f) a b), (at_ (cy f) a b); try reflexivity. now destruct (oturn k _). }
      assert (G2 : forall a b, a < length (ax (vg f)) -> b < length (ay (vg f)) ->
        osub (oscale (cos90 k) (at_ (cx f) a b)) (oscale (sin90 k) (at_ (cy f) a b)) = fst (oturn k (at_ (cx f) a b, at_ (cy f) a b)) /\
        oadd (oscale (cos90 k) (at_ (cy f) a b)) (oscale (sin90 k) (at_ (cx f) a b)) = snd (oturn k (at_ (cx f) a b, at_ (cy f) a b))).
      { intros a b La Lb. rewrite <- (G a b La Lb). auto. }
      clear G. destruct k as [|[|[|[|k']]]]; [| | | |lia]; cbn [rot90 atrans aflip0 aflip1 at_ d0 d1 Nat.even zip3 amap2 amap] in *;
      rewrite ?R0, ?R1, ?T0, ?T1, ?M0, ?M1.
      * destruct (G2 i j Hi Hj) as [-> ->]. reflexivity.
      * destruct (G2 j (length (ay (vg f)) - 1 - i) ltac:(lia) ltac:(lia)) as [-> ->]. reflexivity.
      * destruct (G2 (length (ax (vg f)) - 1 - i) (length (ay (vg f)) - 1 - j) ltac:(lia) ltac:(lia)) as [-> ->]. reflexivity.
      * destruct (G2 (length (ax (vg f)) - 1 - j) i ltac:(lia) ltac:(lia)) as [-> ->]. reflexivity.
    + unfold at_pos. split; intros (i & j & H1 & H2 & H3); exists i, j; repeat split; auto.
      * unfold turned, zip3, amap, amap2 in *. cbn [at_] in *. injection H3 as E1 E2 E3.
        assert (oturn k (at_ (cx f) i j, at_ (cy f) i j) = oturn k (vx, vy)) as E.
        { rewrite (surjective_pairing (oturn k (vx, vy))), (surjective_pairing (oturn k (at_ (cx f) i j, at_ (cy f) i j))). congruence. }
        apply oturn_inj in E. congruence.
      * unfold turned, zip3, amap, amap2 in *. cbn [at_] in *. injection H3 as <- <- <-. reflexivity.
Qed.

(** ** Composition *)
Lemma turn_add k l p : turn k (turn l p) = turn (k + l) p.
Proof. induction k as [|k IH]; simpl; [reflexivity|]. now rewrite IH. Qed.
Lemma turn_4 p : turn 4 p = p.
Proof. destruct p as [x y]. simpl. now rewrite !Qcopp_involutive. Qed.
Lemma turn_mod n p : turn (n mod 4) p = turn n p.
Proof.
  rewrite (Nat.div_mod n 4) at 2 by lia. rewrite Nat.add_comm, <- turn_add.
  assert (H : forall q, turn (4 * q) p = p).
  { induction q as [|q IH]; [reflexivity|]. replace (4 * S q) with (4 + 4 * q) by lia. rewrite <- turn_add, IH. apply turn_4. }
  now rewrite H.
Qed.
Lemma quarter_add a b : (a mod 90 = 0)%Z -> (b mod 90 = 0)%Z -> quarter (a + b) = (quarter b + quarter a) mod 4.
Proof.
  intros Ha Hb. apply Z.mod_divide in Ha, Hb; try lia. destruct Ha as [p ->], Hb as [q ->].
  replace (p * 90 + q * 90)%Z with (90 * (p + q))%Z by lia. rewrite (Z.mul_comm p), (Z.mul_comm q).
  rewrite !quarter_90. apply Nat2Z.inj. rewrite Nat2Z.inj_mod, Nat2Z.inj_add.
  rewrite !Z2Nat.id by (apply Z.mod_pos_bound; lia). rewrite Z.add_comm.
  change (Z.of_nat 4) with 4%Z. rewrite <- Z.add_mod by lia. reflexivity.
Qed.
Lemma even_mod4 n : Nat.even (n mod 4) = Nat.even n.
Proof.
  rewrite (Nat.div_mod n 4) at 2 by lia. rewrite Nat.even_add, Nat.even_mul.
  change (Nat.even 4) with true. cbn [orb]. destruct (Nat.even (n mod 4)); reflexivity.
Qed.
Lemma turn_inv k p : k < 4 -> exists q, turn k q = p /\ forall r, turn k r = p -> r = q.
Proof.
  intro Hk. exists (turn (4 - k) p). split.
  - rewrite turn_add. replace (k + (4 - k)) with 4 by lia. apply turn_4.
  - intros r E. rewrite <- E, turn_add. replace (4 - k + k) with 4 by lia. now rewrite turn_4.
Qed.

Lemma sf_rotate_compose f a b :
  sf_wf f -> grid_sorted (sg f) -> 2 <= length (ax (sg f)) -> 2 <= length (ay (sg f)) ->
  (a mod 90 = 0)%Z -> (b mod 90 = 0)%Z ->
  exists f1 f2 f3, sf_rotate f a = Ok f1 /\ sf_rotate f1 b = Ok f2 /\ sf_rotate f (a + b) = Ok f3 /\ sf_same f2 f3.
Proof.
  intros W S LX LY Ha Hb.
  destruct (sf_rotate_lemma f a W S LX LY Ha) as (f1 & E1 & W1 & S1 & LX1 & LY1 & H1 & A1 & B1 & C1).
  destruct (sf_rotate_lemma f1 b W1 S1 LX1 LY1 Hb) as (f2 & E2 & W2 & S2 & LX2 & LY2 & H2 & A2 & B2 & C2).
  assert (Hab : ((a + b) mod 90 = 0)%Z) by (rewrite Z.add_mod, Ha, Hb by lia; reflexivity).
  destruct (sf_rotate_lemma f (a + b) W S LX LY Hab) as (f3 & E3 & W3 & S3 & LX3 & LY3 & H3 & A3 & B3 & C3).
  exists f1, f2, f3. repeat (split; [assumption|]).
  assert (NE : forall l : list num, 2 <= length l -> l <> []) by (intros l L ->; simpl in L; lia).
  pose proof (quarter_add a b Ha Hb) as Q.
  apply sf_shows_determines; auto.
  - rewrite A2, A3, Q, even_mod4, Nat.even_add, A1, B1. destruct (Nat.even (quarter b)), (Nat.even (quarter a)); reflexivity.
  - rewrite B2, B3, Q, even_mod4, Nat.even_add, A1, B1. destruct (Nat.even (quarter b)), (Nat.even (quarter a)); reflexivity.
  - congruence.
  - intros x y v m.
    destruct (turn_inv (quarter (a + b)) (x, y) (quarter_lt _)) as ([x0 y0] & T & _).
    pose proof (H3 x0 y0 v m) as G3. rewrite T in G3. cbn [fst snd] in G3. rewrite G3.
    rewrite <- (H1 x0 y0 v m).
    destruct (turn (quarter a) (x0, y0)) as [x1 y1] eqn:T1. cbn [fst snd].
    rewrite <- (H2 x1 y1 v m).
    assert (turn (quarter b) (x1, y1) = (x, y)) as ->; [|reflexivity].
    rewrite <- T1, turn_add, <- turn_mod, <- Q. exact T.
Qed.

Lemma sf_rotate_360 f : sf_wf f -> grid_sorted (sg f) -> 2 <= length (ax (sg f)) -> 2 <= length (ay (sg f)) ->
  forall k, exists f', sf_rotate f (360 * k) = Ok f' /\ sf_same f' f.
Proof.
  intros W S LX LY k.
  assert (H0 : ((360 * k) mod 90 = 0)%Z) by (replace (360 * k)%Z with ((4 * k) * 90)%Z by lia; apply Z_mod_mult).
  destruct (sf_rotate_lemma f (360 * k) W S LX LY H0) as (f1 & E1 & W1 & S1 & LX1 & LY1 & H1 & A1 & B1 & C1).
  assert (Q : quarter (360 * k) = 0) by (unfold quarter; rewrite Z.mul_comm, Z_mod_mult; reflexivity).
  rewrite Q in *. exists f1. split; [exact E1|].
  assert (NE : forall l : list num, 2 <= length l -> l <> []) by (intros l L ->; simpl in L; lia).
  apply sf_shows_determines; auto.
Qed.
