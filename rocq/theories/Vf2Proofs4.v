(** * Vf2Proofs4: import of vector fields, and reduction of the spatial resolution. *)
From Coq Require Import Lia.
From Verif Require Import Num Res ListLib Arr FieldModel ScalarFieldModel VectorFieldModel PointsModel TemporalModel AsciiModel SpatialModel FieldSpec FieldProofs FieldProofs2 ScalarProofs FieldProofs3
  TurbProofs GradSpec GradProofs GradProofs2 SpatialSpec Vf2Model Vf2Spec Vf2Proofs Vf2Proofs2 Vf2Proofs3.
From Verif Require AsciiProofs2.

(** ** import *)
Lemma vf_import_lemma x y vx vy m u w t : monotone x -> monotone y -> 2 <= length x -> 2 <= length y ->
  has_shape vx (length x) (length y) -> has_shape vy (length x) (length y) -> has_shape m (length x) (length y) ->
  (increasing x /\ increasing y \/
   forall i j, i < length x -> j < length y -> at_ vx i j <> None /\ at_ vy i j <> None /\ at_ m i j = false) ->
  exists f, vf_import x y vx vy m u w t = Ok f /\ grid_sorted (vg f) /\ vf_wf f /\ vf_tidy f /\
    ux (vg f) = u /\ uy (vg f) = w /\ vuv f = t /\
    forall px py a b k, vf_shows f px py a b k <-> vgiven x y vx vy m px py a b k.
Proof.
  intros Mx My Lx Ly [X0 X1] [Y0 Y1] [M0 M1] Hyp. unfold vf_import.
  rewrite (ltb2 _ Ly), (ltb2 _ Lx). rewrite andb_false_r. cbn [guard].
  assert ((Nat.eqb (length x) (d1 vx) && Nat.eqb (length y) (d0 vx) && negb (Nat.eqb (length x) (length y)))%bool = false) as ->.
  { rewrite X0, X1. destruct (Nat.eqb_spec (length x) (length y)); [now rewrite andb_false_r|reflexivity]. }
  assert (NE : x <> [] /\ y <> []) by (split; intros ->; simpl in *; lia).
  set (rx := qltb (last x (qz 0)) (nths x 0)). set (ry := qltb (last y (qz 0)) (nths y 0)).
  assert (Rx : (rx = false /\ increasing x) \/ (rx = true /\ increasing (rev x))).
  { destruct Mx as [Mx|Mx]; [left|right]; split; auto; unfold rx; [apply not_rev; tauto|now apply rev_dec]. }
  assert (Ry : (ry = false /\ increasing y) \/ (ry = true /\ increasing (rev y))).
  { destruct My as [My|My]; [left|right]; split; auto; unfold ry; [apply not_rev; tauto|now apply rev_dec]. }
  set (m1 := amap2 orb (amap2 orb m (amap isnan vx)) (amap isnan vy)).
  assert (EM : forall i j, at_ m1 i j = (at_ m i j || isnan (at_ vx i j) || isnan (at_ vy i j))%bool) by reflexivity.
  assert (GX0 : length (if rx then rev x else x) = length x) by (destruct rx; rewrite ?rev_length; reflexivity).
  assert (GY0 : length (if ry then rev y else y) = length y) by (destruct ry; rewrite ?rev_length; reflexivity).
  match goal with |- context[guard (negb ?b) _ _] => assert (b = true) as -> end.
  { unfold shape_is. cbn [ax ay]. rewrite GX0, GY0. destruct rx, ry; cbn; rewrite X0, X1, Y0, Y1, M0, M1, !Nat.eqb_refl; reflexivity. }
  cbn [negb guard]. eexists. split; [reflexivity|]. cbn [vg ax ay ux uy vuv].
  split; [split; cbn [ax ay]; [destruct Rx as [[-> ?]|[-> ?]]|destruct Ry as [[-> ?]|[-> ?]]]; assumption|].
  split; [unfold vf_wf, has_shape; cbn [vg ax ay cx cy vmsk]; destruct rx, ry; cbn; rewrite ?rev_length; auto 10|].
  assert (GX : length (if rx then rev x else x) = length x) by (destruct rx; rewrite ?rev_length; reflexivity).
  assert (GY : length (if ry then rev y else y) = length y) by (destruct ry; rewrite ?rev_length; reflexivity).
  destruct Hyp as [[Ix Iy]|Hyp].
  - assert (rx = false) as -> by (unfold rx; apply not_rev; tauto).
    assert (ry = false) as -> by (unfold ry; apply not_rev; tauto).
    split; [|split; [reflexivity|split; [reflexivity|split; [reflexivity|]]]].
    + intros px py a b k (i & j & _ & _ & <- & <- & <-). cbn. rewrite !orb_assoc || idtac. destruct (at_ m i j), (at_ vx i j), (at_ vy i j); cbn; split; split; auto; discriminate.
    + intros px py a b k. unfold vf_shows, vgiven. cbn [vg ax ay cx cy vmsk nanify at_]. split.
      * intros (i & j & H1 & H2 & H3 & H4 & H5). rewrite EM in *. exists i, j. rewrite <- H5. auto 10.
      * intros (i & j & H1 & H2 & H3 & H4 & H5). exists i, j. rewrite EM, <- H3. auto 10.
  - assert (EM' : forall i j, i < length x -> j < length y -> at_ m1 i j = false).
    { intros i j Hi Hj. rewrite EM. destruct (Hyp i j Hi Hj) as (H1 & H2 & ->). destruct (at_ vx i j), (at_ vy i j); try congruence. reflexivity. }
    match goal with |- vf_tidy ?f /\ _ => set (ff := f) end.
    set (fl := fun v : arr onum => if ry then aflip1 (if rx then aflip0 v else v) else (if rx then aflip0 v else v)).
    assert (G : forall px py a b k, vf_shows ff px py a b k <->
       exists i j, i < length x /\ j < length y /\ nth_error (if rx then rev x else x) i = Some px /\ nth_error (if ry then rev y else y) j = Some py /\ at_ (fl vx) i j = a /\ at_ (fl vy) i j = b /\ k = false).
    { intros. unfold vf_shows, ff. cbn [vg ax ay cx cy vmsk nanify at_]. fold (fl vx) (fl vy). split.
      - intros (i & j & H1 & H2 & H3 & H4 & H5). exists i, j.
        assert (i < length x) by (apply nth_error_Some_lt in H1; lia). assert (j < length y) by (apply nth_error_Some_lt in H2; lia).
        rewrite EM' in * by assumption. unfold fl. auto 10.
      - intros (i & j & Hi & Hj & H1 & H2 & H3 & H4 & H5). exists i, j. rewrite EM' by assumption. unfold fl in *. auto 10. }
    assert (P : forall px py a b k, vf_shows ff px py a b k <-> exists i j, i < length x /\ j < length y /\ nth_error x i = Some px /\ nth_error y j = Some py /\ at_ vx i j = a /\ at_ vy i j = b /\ k = false).
    { intros. rewrite G. unfold fl.
      assert (RV : forall (l : list num) i, i < length l -> nth_error (rev l) i = nth_error l (length l - 1 - i)).
      { intros l i Hi. rewrite (nth_error_nth' (rev l) (qz 0)) by (now rewrite rev_length). rewrite rev_nth by exact Hi.
        rewrite (nth_error_nth' l (qz 0)) by lia. do 2 f_equal. lia. }
      split; intros (i & j & Hi & Hj & H1 & H2 & H3 & H4 & H5);
        exists (if rx then length x - 1 - i else i), (if ry then length y - 1 - j else j);
        (split; [destruct rx; lia|]); (split; [destruct ry; lia|]).
      - destruct rx, ry; rewrite ?RV in H1 by exact Hi; rewrite ?RV in H2 by exact Hj; cbn in H3, H4; rewrite ?X0, ?X1, ?Y0, ?Y1 in *; auto 10.
      - assert (length x - 1 - (length x - 1 - i) = i) as EI by lia. assert (length y - 1 - (length y - 1 - j) = j) as EJ by lia.
        destruct rx, ry; rewrite ?RV by lia; cbn; rewrite ?X0, ?X1, ?Y0, ?Y1, ?EI, ?EJ; auto 10. }
    split; [|split; [reflexivity|split; [reflexivity|split; [reflexivity|]]]].
    + intros px py a b k S. apply P in S. destruct S as (i & j & Hi & Hj & _ & _ & <- & <- & ->). destruct (Hyp i j Hi Hj) as (H1 & H2 & _). split; split; intro; congruence.
    + intros px py a b k. rewrite P. unfold vgiven. split.
      * intros (i & j & Hi & Hj & H1 & H2 & H3 & H4 & H5). exists i, j. rewrite <- EM, EM' by assumption. subst k. auto 10.
      * intros (i & j & H1 & H2 & H3 & H4 & H5). pose proof (nth_error_Some_lt _ _ _ H1). pose proof (nth_error_Some_lt _ _ _ H2).
        rewrite <- EM, EM' in H3 by assumption. subst k. exists i, j. auto 10.
Qed.
Lemma vf_import_transposed x y vx vy m u w t : increasing x -> increasing y -> 2 <= length x -> 2 <= length y -> length x <> length y ->
  has_shape vx (length y) (length x) -> has_shape vy (length y) (length x) -> has_shape m (length y) (length x) ->
  exists f, vf_import x y vx vy m u w t = Ok f /\ grid_sorted (vg f) /\ vf_wf f /\ vf_tidy f /\
    forall px py a b k, vf_shows f px py a b k <-> vgiven x y (atrans vx) (atrans vy) (atrans m) px py a b k.
Proof.
  intros Ix Iy Lx Ly N [X0 X1] [Y0 Y1] [M0 M1].
  destruct (vf_import_lemma x y (atrans vx) (atrans vy) (atrans m) u w t) as (f & E & S & W & T & _ & _ & _ & H); try (left; assumption); try assumption; try (split; assumption).
  { left. auto. }
  exists f. split; [|auto]. rewrite <- E. unfold vf_import.
  rewrite (ltb2 _ Ly), (ltb2 _ Lx). rewrite andb_false_r. cbn [guard].
  assert ((Nat.eqb (length x) (d1 vx) && Nat.eqb (length y) (d0 vx) && negb (Nat.eqb (length x) (length y)))%bool = true) as ->.
  { rewrite X0, X1, !Nat.eqb_refl. apply Nat.eqb_neq in N. now rewrite N. }
  assert ((Nat.eqb (length x) (d1 (atrans vx)) && Nat.eqb (length y) (d0 (atrans vx)) && negb (Nat.eqb (length x) (length y)))%bool = false) as ->.
  { cbn. rewrite X0, X1. apply Nat.eqb_neq in N. now rewrite N. }
  reflexivity.
Qed.

(** ** the cells of a block *)
Lemma block_eq f k i j : unmasked_block f k i j = block_values (values f) (msk f) k i j.
Proof.
  unfold unmasked_block, block_values, block_idx. generalize (seq (i * k) k) (seq (j * k) k). intros r c.
  induction r as [|a r IH]; [reflexivity|]. cbn [flat_map list_prod]. rewrite filter_app, map_app, <- IH. f_equal.
  clear IH. induction c as [|b c IH]; [reflexivity|]. cbn [flat_map map filter fst snd]. destruct (at_ (msk f) a b); cbn [negb map fst snd app]; [exact IH|now rewrite IH].
Qed.
Lemma osum_some ns : ScalarFieldModel.osum (map Some ns) = Some (Num.qsum ns).
Proof. induction ns as [|a ns IH]; [reflexivity|]. unfold ScalarFieldModel.osum in *. cbn [map fold_right]. rewrite IH. reflexivity. Qed.
Lemma omean_is l ns : l = map Some ns -> ns <> [] -> is_mean l (omean l).
Proof.
  intros -> N. destruct ns as [|a ns]; [contradiction|]. exists (a :: ns), (Num.qsum (a :: ns) / qn (length (a :: ns)))%num.
  split; [reflexivity|]. split; [discriminate|]. split.
  - unfold omean. rewrite osum_some. cbn [map option_map length]. now rewrite map_length.
  - apply qdiv_mul. apply qgt_neq. apply AsciiProofs2.qn_pos'. cbn. lia.
Qed.

Lemma all_some {A} (l : list (option A)) : (forall a, In a l -> a <> None) -> exists ns, l = map Some ns.
Proof.
  induction l as [|[a|] l IH]; intro H; [now exists []| |exfalso; apply (H None); [now left|reflexivity]].
  destruct IH as [ns ->]; [intros b Hb; apply H; now right|]. now exists (a :: ns).
Qed.
Definition cells_clean (v : arr onum) (m : arr bool) (n p : nat) : Prop := forall i j, i < n -> j < p -> (at_ v i j = None <-> at_ m i j = true).
Lemma block_some v m n p k i j : cells_clean v m n p -> i < n / k -> j < p / k -> 0 < k -> exists ns, block_values v m k i j = map Some ns.
Proof.
  intros C Hi Hj K. apply all_some. intros a Ha. unfold block_values in Ha. apply in_map_iff in Ha. destruct Ha as ([r c] & <- & Ha).
  apply filter_In in Ha. destruct Ha as [Ha M]. apply in_prod_iff in Ha. rewrite !in_seq in Ha. cbn [fst snd] in *. apply negb_true_iff in M.
  assert (i * k + k <= n) by (pose proof (Nat.mul_div_le n k ltac:(lia)); nia).
  assert (j * k + k <= p) by (pose proof (Nat.mul_div_le p k ltac:(lia)); nia).
  intro E. apply C in E; [congruence|lia|lia].
Qed.
Lemma reduce_axis_length l k : length (reduce_axis l k) = length l / k.
Proof. unfold reduce_axis. now rewrite map_length, seq_length. Qed.
Lemma reduce_axis_nth l k i : i < length l / k -> nths (reduce_axis l k) i = ((nths l (i * k + (k / 2 - 1)) + nths l (i * k + k / 2)) / 2)%num.
Proof.
  intro H. unfold reduce_axis. rewrite (nth_indep _ (qz 0) ((fun i => (nths l (i * k + (k / 2 - 1)) + nths l (i * k + k / 2)) / 2)%num 0)) by (now rewrite map_length, seq_length).
  rewrite (map_nth (fun i => (nths l (i * k + (k / 2 - 1)) + nths l (i * k + k / 2)) / 2)%num). now rewrite seq_nth.
Qed.
Lemma half2 a b : ((a + b) / 2 * 2 = a + b)%num.
Proof. apply qdiv_mul. discriminate. Qed.
Lemma block_in (l : list num) k i : 2 <= k -> i < length l / k -> i * k + k <= length l.
Proof. intros K H. pose proof (Nat.mul_div_le (length l) k ltac:(lia)). nia. Qed.
Lemma reduce_axis_increasing l k : increasing l -> 2 <= k -> increasing (reduce_axis l k).
Proof.
  intros I K i j Hij Hj. rewrite reduce_axis_length in Hj. rewrite !reduce_axis_nth by lia.
  pose proof (block_in l k j K Hj) as Bj. assert (k / 2 <= k - 1) by (apply Nat.div_le_upper_bound; lia). assert (1 <= k / 2) by (apply Nat.div_le_lower_bound; lia).
  assert (i * k + k <= j * k) by nia.
  assert (A : (nths l (i * k + (k / 2 - 1)) < nths l (j * k + (k / 2 - 1)))%num) by (apply I; lia).
  assert (B : (nths l (i * k + k / 2) < nths l (j * k + k / 2))%num) by (apply I; lia).
  pose proof (half2 (nths l (i * k + (k / 2 - 1))) (nths l (i * k + k / 2))) as P.
  pose proof (half2 (nths l (j * k + (k / 2 - 1))) (nths l (j * k + k / 2))) as Q.
  revert A B P Q. generalize ((nths l (i * k + (k / 2 - 1)) + nths l (i * k + k / 2)) / 2)%num ((nths l (j * k + (k / 2 - 1)) + nths l (j * k + k / 2)) / 2)%num. intros. qlra.
Qed.
Lemma reduce_axis_coarse l k : 2 <= k -> coarse_axis l (reduce_axis l k) k.
Proof.
  intros K. split; [apply reduce_axis_length|]. intros i p E. pose proof (nth_error_Some_lt _ _ _ E) as L. rewrite reduce_axis_length in L.
  apply nth_error_nths in E. rewrite reduce_axis_nth in E by exact L. pose proof (block_in l k i K L).
  assert (k / 2 <= k - 1) by (apply Nat.div_le_upper_bound; lia).
  exists (nths l (i * k + (k / 2 - 1))), (nths l (i * k + k / 2)). split; [apply nths_nth_error; lia|]. split; [apply nths_nth_error; lia|]. rewrite <- E. apply half2.
Qed.
(** the result of a reduction by an even factor, cell by cell *)
Lemma sf_reduce_run f k : sf_wf f -> cells_clean (values f) (msk f) (length (ax (sg f))) (length (ay (sg f))) -> grid_sorted (sg f) -> Nat.Even k -> 2 <= k ->
  2 <= length (ax (sg f)) / k -> 2 <= length (ay (sg f)) / k ->
  exists r, sf_reduce f (Z.of_nat k) = Ok r /\ sg r = mkgrid (reduce_axis (ax (sg f)) k) (reduce_axis (ay (sg f)) k) (ux (sg f)) (uy (sg f)) /\ uv r = uv f /\ sf_wf r /\
    forall i j, i < length (ax (sg f)) / k -> j < length (ay (sg f)) / k ->
      let l := block_values (values f) (msk f) k i j in
      (at_ (msk r) i j = true <-> l = []) /\ at_ (values r) i j = (match l with [] => None | _ => omean l end).
Proof.
  intros W C [SX SY] EV K LX LY. unfold sf_reduce.
  assert ((Z.of_nat k <? 1)%Z = false) as -> by (apply Z.ltb_ge; lia). assert ((Z.of_nat k =? 1)%Z = false) as -> by (apply Z.eqb_neq; lia).
  assert (Z.even (Z.of_nat k) = true) as ->. { destruct EV as [h ->]. rewrite Z.even_spec. exists (Z.of_nat h). lia. }
  cbn [guard negb andb]. rewrite Nat2Z.id.
  rewrite sf_import_plain; try (now apply reduce_axis_increasing); try (rewrite reduce_axis_length; assumption); try (rewrite reduce_axis_length; reflexivity).
  eexists. split; [reflexivity|]. split; [reflexivity|]. split; [reflexivity|]. split; [repeat split; cbn; rewrite reduce_axis_length; reflexivity|].
  intros i j Hi Hj. cbv zeta. cbn [msk values raw at_ amap2 amap]. rewrite block_eq.
  destruct (block_some _ _ _ _ k i j C Hi Hj ltac:(lia)) as [ns E]. rewrite E. destruct ns as [|a ns]; cbn [map].
  - split; [split; auto|reflexivity].
  - change (Some a :: map Some ns) with (map Some (a :: ns)). destruct (omean_is (map Some (a :: ns)) (a :: ns) eq_refl) as (ns' & s & _ & _ & S & _); [discriminate|].
    cbn [orb]. cbn [map] in *. rewrite S. cbn. split; [split; discriminate|reflexivity].
Qed.
Lemma clean_cells f : sf_wf f -> sf_clean f -> cells_clean (values f) (msk f) (length (ax (sg f))) (length (ay (sg f))).
Proof. intros W C i j Hi Hj. apply (C (nths (ax (sg f)) i) (nths (ay (sg f)) j)). exists i, j. split; [now apply nths_nth_error|]. split; [now apply nths_nth_error|auto]. Qed.
Lemma sf_reduce_lemma f k : sf_wf f -> sf_clean f -> grid_sorted (sg f) -> Nat.Even k -> 2 <= k ->
  2 * k <= length (ax (sg f)) -> 2 * k <= length (ay (sg f)) ->
  exists r, sf_reduce f (Z.of_nat k) = Ok r /\ uv r = uv f /\ ux (sg r) = ux (sg f) /\ uy (sg r) = uy (sg f) /\ sf_wf r /\ grid_sorted (sg r) /\
    coarse_axis (ax (sg f)) (ax (sg r)) k /\ coarse_axis (ay (sg f)) (ay (sg r)) k /\
    forall i j, cell_in r i j -> let l := block_values (values f) (msk f) k i j in
      (at_ (msk r) i j = true <-> l = []) /\ (at_ (msk r) i j = false -> is_mean l (at_ (values r) i j)).
Proof.
  intros W C S EV K LX LY. assert (2 <= length (ax (sg f)) / k) by (apply Nat.div_le_lower_bound; lia). assert (2 <= length (ay (sg f)) / k) by (apply Nat.div_le_lower_bound; lia).
  pose proof (clean_cells f W C) as CC. destruct (sf_reduce_run f k W CC S EV K) as (r & E & G & U & W' & H1); [assumption|assumption|].
  exists r. split; [exact E|]. split; [exact U|]. rewrite G. cbn [ax ay ux uy]. split; [reflexivity|]. split; [reflexivity|]. split; [exact W'|].
  split; [split; cbn [ax ay]; apply reduce_axis_increasing; [apply S|exact K|apply S|exact K]|]. split; [now apply reduce_axis_coarse|]. split; [now apply reduce_axis_coarse|].
  intros i j [Hi Hj]. rewrite G in Hi, Hj. cbn [ax ay] in Hi, Hj. rewrite reduce_axis_length in Hi, Hj. destruct (H1 i j Hi Hj) as [A B]. cbv zeta. split; [exact A|]. intro M.
  destruct (block_some _ _ _ _ k i j CC Hi Hj ltac:(lia)) as [ns N]. rewrite B. rewrite N in *.
  assert (ns <> []) as NN by (intros ->; assert (at_ (msk r) i j = true) by (now apply A); congruence).
  destruct ns as [|a ns]; [contradiction|]. cbn [map]. apply (omean_is _ (a :: ns)); [reflexivity|discriminate].
Qed.
Lemma vf_reduce_lemma f k : vf_wf f -> vf_tidy f -> grid_sorted (vg f) -> Nat.Even k -> 2 <= k ->
  2 * k <= length (ax (vg f)) -> 2 * k <= length (ay (vg f)) ->
  exists r, vf_reduce f (Z.of_nat k) = Ok r /\ vuv r = vuv f /\ ux (vg r) = ux (vg f) /\ uy (vg r) = uy (vg f) /\ vf_wf r /\ grid_sorted (vg r) /\
    coarse_axis (ax (vg f)) (ax (vg r)) k /\ coarse_axis (ay (vg f)) (ay (vg r)) k /\
    forall i j, vcell_in r i j ->
      (at_ (vmsk r) i j = true <-> block_values (cx f) (vmsk f) k i j = []) /\
      (at_ (vmsk r) i j = false -> is_mean (block_values (cx f) (vmsk f) k i j) (at_ (cx r) i j) /\ is_mean (block_values (cy f) (vmsk f) k i j) (at_ (cy r) i j)).
Proof.
  intros W T S EV K LX LY. pose proof S as [SX SY]. pose proof W as ([X0 X1] & [Y0 Y1] & [M0 M1]).
  assert (NX : 2 <= length (ax (vg f)) / k) by (apply Nat.div_le_lower_bound; lia). assert (NY : 2 <= length (ay (vg f)) / k) by (apply Nat.div_le_lower_bound; lia).
  assert (CXc : cells_clean (cx f) (vmsk f) (length (ax (vg f))) (length (ay (vg f)))).
  { intros i j Hi Hj. destruct (tidy_at f i j T Hi Hj) as [A _]. destruct (at_ (cx f) i j), (at_ (vmsk f) i j); cbn in A; split; congruence. }
  assert (CYc : cells_clean (cy f) (vmsk f) (length (ax (vg f))) (length (ay (vg f)))).
  { intros i j Hi Hj. destruct (tidy_at f i j T Hi Hj) as [_ A]. destruct (at_ (cy f) i j), (at_ (vmsk f) i j); cbn in A; split; congruence. }
  unfold vf_reduce, comp_sf. rewrite !sf_import_plain by (assumption || lia). cbn [bind].
  set (sx := mksf _ (cx f) _ _). set (sy := mksf _ (cy f) _ _).
  assert (MX : forall c (CC : cells_clean c (vmsk f) (length (ax (vg f))) (length (ay (vg f)))) s, s = mksf (mkgrid (ax (vg f)) (ay (vg f)) (ux (vg f)) (uy (vg f))) c (amap2 orb (vmsk f) (amap isnan c)) (vuv f) ->
    forall i j, i < length (ax (vg f)) -> j < length (ay (vg f)) -> at_ (msk s) i j = at_ (vmsk f) i j /\ at_ (values s) i j = at_ c i j).
  { intros c CC s -> i j Hi Hj. cbn. pose proof (CC i j Hi Hj). destruct (at_ c i j), (at_ (vmsk f) i j); cbn; auto; (assert (true = false \/ Some n = None) by (try (left; symmetry; apply H; reflexivity); try (right; apply H; reflexivity)); intuition congruence) || intuition congruence. }
  assert (BL : forall c (CC : cells_clean c (vmsk f) (length (ax (vg f))) (length (ay (vg f)))) s, s = mksf (mkgrid (ax (vg f)) (ay (vg f)) (ux (vg f)) (uy (vg f))) c (amap2 orb (vmsk f) (amap isnan c)) (vuv f) ->
    forall i j, i < length (ax (vg f)) / k -> j < length (ay (vg f)) / k -> block_values (values s) (msk s) k i j = block_values c (vmsk f) k i j).
  { intros c CC s Es i j Hi Hj. pose proof (MX c CC s Es) as M. unfold block_values.
    assert (IN : forall a, In a (list_prod (seq (i * k) k) (seq (j * k) k)) -> fst a < length (ax (vg f)) /\ snd a < length (ay (vg f))).
    { intros [a b] H. apply in_prod_iff in H. rewrite !in_seq in H. pose proof (block_in (ax (vg f)) k i K Hi). pose proof (block_in (ay (vg f)) k j K Hj). cbn. lia. }
    rewrite (filter_ext_in _ (fun c => negb (at_ (vmsk f) (fst c) (snd c)))).
    - apply map_ext_in. intros a Ha. apply filter_In in Ha. destruct (IN a (proj1 Ha)). now apply M.
    - intros a Ha. destruct (IN a Ha). f_equal. now apply M. }
  assert (CC' : forall c (CC : cells_clean c (vmsk f) (length (ax (vg f))) (length (ay (vg f)))) s, s = mksf (mkgrid (ax (vg f)) (ay (vg f)) (ux (vg f)) (uy (vg f))) c (amap2 orb (vmsk f) (amap isnan c)) (vuv f) ->
    cells_clean (values s) (msk s) (length (ax (vg f))) (length (ay (vg f)))).
  { intros c CC s Es i j Hi Hj. destruct (MX c CC s Es i j Hi Hj) as [-> ->]. now apply CC. }
  destruct (sf_reduce_run sx k) as (rx & E1 & G1 & _ & [V1 V1'] & H1); [split; split; assumption|now apply (CC' (cx f))|exact S|assumption|assumption|assumption|assumption|].
  destruct (sf_reduce_run sy k) as (ry & E2 & G2 & _ & [V2 V2'] & H2); [split; split; assumption|now apply (CC' (cy f))|exact S|assumption|assumption|assumption|assumption|].
  rewrite E1, E2. cbn [bind]. rewrite G1. cbn [sx sg ax ay]. cbn [sx sy sg ax ay] in G1, G2. rewrite G1 in V1, V1'. rewrite G2 in V2, V2'. cbn [ax ay] in V1, V1', V2, V2'.
  destruct (vf_import_plain (reduce_axis (ax (vg f)) k) (reduce_axis (ay (vg f)) k) (values rx) (values ry) (msk rx) (ux (vg f)) (uy (vg f)) (vuv f)) as (r & E & (G & U & W') & P);
    try (now apply reduce_axis_increasing); try (rewrite reduce_axis_length; assumption); try assumption.
  exists r. split; [exact E|]. split; [exact U|]. rewrite G. cbn [ax ay ux uy]. split; [reflexivity|]. split; [reflexivity|]. split; [exact W'|].
  split; [split; cbn [ax ay]; now apply reduce_axis_increasing|]. split; [now apply reduce_axis_coarse|]. split; [now apply reduce_axis_coarse|].
  intros i j [Hi Hj]. rewrite G in Hi, Hj. cbn [ax ay] in Hi, Hj. rewrite reduce_axis_length in Hi, Hj.
  destruct (H1 i j Hi Hj) as [A1 B1]. destruct (H2 i j Hi Hj) as [A2 B2]. rewrite (BL (cx f) CXc sx eq_refl i j Hi Hj) in A1, B1. rewrite (BL (cy f) CYc sy eq_refl i j Hi Hj) in A2, B2.
  destruct (block_some _ _ _ _ k i j CXc Hi Hj ltac:(lia)) as [ns N1]. destruct (block_some _ _ _ _ k i j CYc Hi Hj ltac:(lia)) as [ms N2].
  assert (LN : length ns = length ms).
  { apply (f_equal (@length _)) in N1, N2. unfold block_values in N1, N2. rewrite !map_length in N1, N2. congruence. }
  destruct (P i j) as (P1 & P2 & P3). rewrite N1, N2 in *. rewrite P1, P2, P3, B1, B2.
  destruct ns as [|a ns], ms as [|b ms]; cbn [map length] in *; try discriminate.
  - assert (at_ (msk rx) i j = true) as -> by (now apply A1). cbn. split; [split; auto|discriminate].
  - assert (at_ (msk rx) i j = false) as -> by (apply not_true_iff_false; intro Q; apply A1 in Q; discriminate).
    pose proof (omean_is (map Some (a :: ns)) (a :: ns) eq_refl ltac:(discriminate)) as Q1.
    pose proof (omean_is (map Some (b :: ms)) (b :: ms) eq_refl ltac:(discriminate)) as Q2. cbn [map] in Q1, Q2.
    pose proof Q1 as (? & s1 & _ & _ & S1 & _). pose proof Q2 as (? & s2 & _ & _ & S2 & _). rewrite S1, S2 in *. cbn. split; [split; discriminate|]. auto.
Qed.
