(** * VpropProofs3: radius and centre of a vortex (C151, C152). *)
From Coq Require Import Lia.
From Verif Require Import Num Res ListLib SortLib Arr FieldModel ScalarFieldModel VectorFieldModel FieldSpec ProfileModel PointsModel TemporalModel TemporalSpec
  FieldProofs GradProofs AsciiProofs2 TemporalProofs11 VpropModel VpropSpec VpropProofs VpropProofs2.

Lemma above_iff f t c : sf_wf f -> sf_clean f -> (higher f t c <-> fst c < length (ax (sg f)) /\ snd c < length (ay (sg f)) /\ above (values f) (Some t) c = true).
Proof.
  intros W C. unfold higher, above. split.
  - intros (v & (H1 & H2 & M & E) & L). split; [exact H1|]. split; [exact H2|]. rewrite E. now apply qltb_lt.
  - intros (H1 & H2 & H). destruct (at_ (values f) (fst c) (snd c)) as [v|] eqn:E; [|discriminate]. exists v. split; [now apply shows_iff|now apply qltb_lt].
Qed.
Lemma label_zone f t c : sf_wf f -> sf_clean f -> higher f t c -> zone (higher f t) c (same_label (all_cells (d0 (values f)) (d1 (values f))) (above (values f) (Some t)) c).
Proof.
  intros W C H. pose proof W as [[R0 R1] _]. pose proof H as H'. apply above_iff in H'; auto. destruct H' as (H1 & H2 & H3). unfold same_label. rewrite H3.
  apply component_zone; cbn [values d0 d1]; [now rewrite R0|now rewrite R1| |exact H]. intro e. rewrite R0, R1. now apply above_iff.
Qed.
Lemma zone_cells f t c z d : zone (higher f t) c z -> In d z -> exists v, shows_at f d v /\ (t < v)%num.
Proof. intros [_ Z] I. apply Z in I. apply joined_in in I. exact I. Qed.
Lemma highest_lemma f t c z z0 : sf_wf f -> sf_clean f -> zone (higher f t) c z -> zone (higher f t) c z0 -> z <> [] -> exists m, omax (map (at_cell (values f)) z) = Ok (Some m) /\ highest f z0 m.
Proof.
  intros W C Z Z0 N. assert (NN : forall o, In o (map (at_cell (values f)) z) -> o <> None).
  { intros o I. apply in_map_iff in I. destruct I as (d & <- & I). destruct (zone_cells _ _ _ _ _ Z I) as (v & (_ & _ & _ & E) & _). unfold at_cell. congruence. }
  destruct (omax_some (map (at_cell (values f)) z)) as (m & E & I & A); [destruct z; [congruence|discriminate]|exact NN|].
  exists m. split; [exact E|]. assert (P := zone_unique _ _ _ _ Z Z0). split.
  - apply in_map_iff in I. destruct I as (d & Q & I). exists d. split; [exact (Permutation_in _ P I)|]. destruct (zone_cells _ _ _ _ _ Z I) as (v & (H1 & H2 & _ & _) & _). now apply shows_iff.
  - intros d v I2 S0. apply A. apply in_map_iff. exists d. split; [destruct S0 as (_ & _ & _ & Q); exact Q|]. exact (Permutation_in _ (Permutation_sym P) I2).
Qed.
Lemma highest_unique f z m m' : highest f z m -> highest f z m' -> m = m'.
Proof. intros [(c & I & S0) A] [(c' & I' & S') A']. apply Qcle_antisym; eauto. Qed.

(** ** sums over the zone *)
Lemma cell_sum_le f g h z : (forall c v, In c z -> at_ (values f) (fst c) (snd c) = Some v -> (g c v <= h c v)%num) -> (cell_sum f g z <= cell_sum f h z)%num.
Proof.
  intro H. unfold cell_sum. induction z as [|c z IH]; [apply qle_refl|]. cbn [map]. rewrite !qsum_cons. assert (X := IH (fun c v I => H c v (or_intror I))).
  assert (Y := H c). destruct (at_ (values f) (fst c) (snd c)) as [v|]; [specialize (Y v (or_introl eq_refl) eq_refl); qlra|qlra].
Qed.
Lemma cell_sum_scale f g k z : cell_sum f (fun c v => (g c v * k)%num) z = (cell_sum f g z * k)%num.
Proof. unfold cell_sum. induction z as [|c z IH]; [cbn; qring|]. cbn [map]. rewrite !qsum_cons, IH. destruct (at_ (values f) (fst c) (snd c)); qring. Qed.
Lemma cell_sum_add f g h z : cell_sum f (fun c v => (g c v + h c v)%num) z = (cell_sum f g z + cell_sum f h z)%num.
Proof. unfold cell_sum. induction z as [|c z IH]; [cbn; qring|]. cbn [map]. rewrite !qsum_cons, IH. destruct (at_ (values f) (fst c) (snd c)); qring. Qed.
Lemma cell_sum_ext f g h z : (forall c v, In c z -> g c v = h c v) -> cell_sum f g z = cell_sum f h z.
Proof. intro H. unfold cell_sum. f_equal. apply map_ext_in. intros c I. destruct (at_ (values f) (fst c) (snd c)); auto. Qed.
Lemma cell_sum_pos f z d w : In d z -> at_ (values f) (fst d) (snd d) = Some w -> w <> qz 0 -> (0 < cell_sum f (fun _ v => qabs v) z)%num.
Proof.
  intros I E N. induction z as [|c z IH]; [contradiction|]. unfold cell_sum in *. cbn [map]. rewrite qsum_cons.
  assert (P : forall l : list cell, (0 <= Num.qsum (map (fun c => match at_ (values f) (fst c) (snd c) with Some v => qabs v | None => 0%num end) l))%num).
  { induction l as [|a l IHl]; [apply qle_refl|]. cbn [map]. rewrite qsum_cons. assert (X : (0 <= match at_ (values f) (fst a) (snd a) with Some v => qabs v | None => 0%num end)%num) by (destruct (at_ (values f) (fst a) (snd a)); [apply qabs_nonneg|apply qle_refl]). qlra. }
  destruct I as [->|I].
  - rewrite E. assert (X := P z). assert (Y : (0 < qabs w)%num) by (destruct (qle_lt_or_eq _ _ (qabs_nonneg w)) as [|Q]; [assumption|]; exfalso; apply N; revert Q; unfold qabs; destruct (qleb_spec (qz 0) w); intro; qlra). qlra.
  - specialize (IH I). assert (X : (0 <= match at_ (values f) (fst c) (snd c) with Some v => qabs v | None => 0%num end)%num) by (destruct (at_ (values f) (fst c) (snd c)); [apply qabs_nonneg|apply qle_refl]). qlra.
Qed.
Lemma osums_cells f (g : cell -> num -> num) z : (forall c, In c z -> at_ (values f) (fst c) (snd c) <> None) ->
  osums (map (fun c => option_map (g c) (at_cell (values f) c)) z) = Some (cell_sum f g z).
Proof.
  intro H. rewrite osums_some.
  - rewrite map_map. unfold cell_sum. f_equal. f_equal. apply map_ext. intro c. unfold at_cell. now destruct (at_ (values f) (fst c) (snd c)).
  - intros v I. apply in_map_iff in I. destruct I as (c & <- & I). specialize (H c I). unfold at_cell. now destruct (at_ (values f) (fst c) (snd c)).
Qed.
Lemma mass_lemma f z coord : (forall c, In c z -> at_ (values f) (fst c) (snd c) <> None) -> (0 < cell_sum f (fun _ v => qabs v) z)%num ->
  mass_center (values f) z coord = Some (cell_sum f (fun c v => qabs v * qn (coord c)) z / cell_sum f (fun _ v => qabs v) z)%num.
Proof.
  intros H P. unfold mass_center.
  replace (map (fun c => omul (oabs (at_cell (values f) c)) (Some (qn (coord c)))) z) with (map (fun c => option_map (fun v => (qabs v * qn (coord c))%num) (at_cell (values f) c)) z)
    by (apply map_ext; intro c; now destruct (at_cell (values f) c)).
  rewrite (osums_cells f (fun c v => (qabs v * qn (coord c))%num)) by exact H.
  change (map (fun c => oabs (at_cell (values f) c)) z) with (map (fun c => option_map ((fun _ v => qabs v) c) (at_cell (values f) c)) z). rewrite (osums_cells f (fun _ v => qabs v)) by exact H.
  cbn [odiv]. match goal with |- context [qeqb ?a ?b] => change a with (cell_sum f (fun (_ : nat * nat) (v : num) => qabs v) z); destruct (qeqb_spec (cell_sum f (fun (_ : nat * nat) (v : num) => qabs v) z) b) as [Z|Z] end; [exfalso; rewrite Z in P; qlra|reflexivity].
Qed.
(** the weighted mean of the abscissae of a regular axis *)
Lemma mass_axis f z (coord : cell -> nat) l h : regular_axis l h -> (forall c, In c z -> coord c < length l) -> (forall c, In c z -> at_ (values f) (fst c) (snd c) <> None) ->
  (0 < cell_sum f (fun _ v => qabs v) z)%num ->
  exists x, oadd (Some (nths l 0)) (omul (mass_center (values f) z coord) (Some h)) = Some x /\
    (x * cell_sum f (fun _ v => qabs v) z = cell_sum f (fun c v => qabs v * nths l (coord c)) z)%num /\
    (forall a b, (forall c, In c z -> (a <= nths l (coord c) <= b)%num) -> (a <= x <= b)%num).
Proof.
  intros (Hp & L & R) Hc Hv P. rewrite mass_lemma by assumption. cbn [omul oadd]. set (S0 := cell_sum f (fun _ v => qabs v) z) in *. set (S1 := cell_sum f (fun c v => (qabs v * qn (coord c))%num) z).
  exists (nths l 0 + S1 / S0 * h)%num. split; [reflexivity|].
  assert (E : ((nths l 0 + S1 / S0 * h) * S0 = cell_sum f (fun c v => (qabs v * nths l (coord c))%num) z)%num).
  { rewrite (cell_sum_ext f _ (fun c v => (qabs v * nths l 0 + qabs v * qn (coord c) * h)%num)).
    - rewrite (cell_sum_add f (fun c v => (qabs v * nths l 0)%num) (fun c v => (qabs v * qn (coord c) * h)%num)), (cell_sum_scale f (fun _ v => qabs v)), (cell_sum_scale f (fun c v => (qabs v * qn (coord c))%num)).
      fold S0 S1. assert (D := qdiv_mul S1 S0 ltac:(apply qgt_neq; exact P)). set (q := (S1 / S0)%num) in *. clearbody q. rewrite <- D. qring.
    - intros c v I. rewrite (R (coord c)) by auto. qring. }
  split; [exact E|]. intros a b B. set (x := (nths l 0 + S1 / S0 * h)%num) in *. clearbody x.
  assert (LA : (a * S0 <= x * S0)%num).
  { rewrite E. unfold S0. rewrite Qcmult_comm, <- cell_sum_scale. apply cell_sum_le. intros c v I _. destruct (B c I). apply qmul_le_l; [apply qabs_nonneg|assumption]. }
  assert (LB : (x * S0 <= b * S0)%num).
  { rewrite E. unfold S0. rewrite (Qcmult_comm b), <- cell_sum_scale. apply cell_sum_le. intros c v I _. destruct (B c I). apply qmul_le_l; [apply qabs_nonneg|assumption]. }
  split; [destruct (Qclt_le_dec x a) as [Q|]; [exfalso; assert (X := qmul_lt_r _ _ S0 P Q); qlra|assumption]|destruct (Qclt_le_dec b x) as [Q|]; [exfalso; assert (X := qmul_lt_r _ _ S0 P Q); qlra|assumption]].
Qed.

Lemma radius_lemma crit rad f vort x y eps dx dy i j v0 z1 m : crit f = Ok vort -> sg vort = vg f -> sf_wf vort -> sf_clean vort -> grid_sorted (vg f) -> on_axis (ax (vg f)) x -> on_axis (ay (vg f)) y ->
  regular_axis (ax (vg f)) dx -> regular_axis (ay (vg f)) dy -> nearest_node (ax (vg f)) x i -> nearest_node (ay (vg f)) y j ->
  shows_at vort (i, j) v0 -> (eps * v0 < v0)%num -> zone (higher vort (eps * v0)%num) (i, j) z1 -> highest vort z1 m -> (eps * m < v0)%num ->
  exists z xc yc, zone (higher vort (eps * m)%num) (i, j) z /\ vortex_radius crit rad f x y eps = Ok (rad (qn (length z) * dx * dy)%num, (Some xc, Some yc)) /\
    (0 < cell_sum vort (fun _ v => qabs v) z)%num /\
    (xc * cell_sum vort (fun _ v => qabs v) z = cell_sum vort (fun c v => qabs v * nths (ax (vg f)) (fst c)) z)%num /\
    (yc * cell_sum vort (fun _ v => qabs v) z = cell_sum vort (fun c v => qabs v * nths (ay (vg f)) (snd c)) z)%num /\
    (forall a b, (forall c, In c z -> (a <= nths (ax (vg f)) (fst c) <= b)%num) -> (a <= xc <= b)%num) /\
    (forall a b, (forall c, In c z -> (a <= nths (ay (vg f)) (snd c) <= b)%num) -> (a <= yc <= b)%num).
Proof.
  intros E G W C GS OX OY RX RY Ni Nj S0 P0 Z1 M P1. unfold vortex_radius. rewrite E. cbn [bind]. rewrite (step1_reg _ _ RX), (step1_reg _ _ RY). cbn [bind].
  destruct (nearest_cell_lemma (vg f) x y GS OX OY) as (i' & j' & EN & Ni' & Nj'). rewrite <- (nearest_same _ _ _ _ Ni Ni'), <- (nearest_same _ _ _ _ Nj Nj') in EN. rewrite EN. cbn [bind].
  pose proof W as [[R0 R1] _]. assert (Hi := nearest_in _ _ _ Ni). assert (Hj := nearest_in _ _ _ Nj).
  assert (IN : in_arr (values vort) (i, j) = true) by (unfold in_arr; cbn [values d0 d1 fst snd]; rewrite R0, R1, G; apply andb_true_iff; rewrite !Nat.ltb_lt; auto).
  rewrite IN. cbn [negb guard]. unfold vortex_zone.
  assert (E0 : at_cell (values vort) (i, j) = Some v0) by (destruct S0 as (_ & _ & _ & Q); exact Q). rewrite E0. cbn [omul].
  assert (H0 : higher vort (eps * v0)%num (i, j)) by (exists v0; auto). assert (ZA := label_zone vort _ _ W C H0). set (za := same_label _ _ _) in ZA |- *.
  destruct (highest_lemma vort _ _ za z1 W C ZA Z1) as (m' & EM & M').
  { intro Q. assert (X : In (i, j) za) by (apply ZA; now constructor). now rewrite Q in X. }
  cbn [values d0 d1] in EM. rewrite EM. cbn [bind omul]. rewrite (highest_unique _ _ _ _ M' M).
  assert (H1 : higher vort (eps * m)%num (i, j)) by (exists v0; auto). assert (ZB := label_zone vort _ _ W C H1). cbn [values d0 d1] in ZB. set (z := same_label _ _ _) in ZB |- *.
  assert (Iz : In (i, j) z) by (apply ZB; now constructor).
  assert (Nz : forall c, In c z -> at_ (values vort) (fst c) (snd c) <> None) by (intros c I; destruct (zone_cells _ _ _ _ _ ZB I) as (v & (_ & _ & _ & Q) & _); congruence).
  assert (Hz : forall c, In c z -> fst c < length (ax (vg f)) /\ snd c < length (ay (vg f))) by (intros c I; destruct (zone_cells _ _ _ _ _ ZB I) as (v & (Q1 & Q2 & _) & _); rewrite G in *; auto).
  assert (N0 : v0 <> qz 0) by (intro Q; rewrite Q in P0; change (Qcmult eps (qz 0)) with (eps * 0)%num in P0; qlra).
  assert (Pz : (0 < cell_sum vort (fun _ v => qabs v) z)%num) by (apply (cell_sum_pos vort z (i, j) v0); auto).
  destruct (mass_axis vort z fst _ _ RX (fun c I => proj1 (Hz c I)) Nz Pz) as (xc & EX & QX & BX).
  destruct (mass_axis vort z snd _ _ RY (fun c I => proj2 (Hz c I)) Nz Pz) as (yc & EY & QY & BY).
  exists z, xc, yc. split; [exact ZB|]. rewrite EX, EY. auto 10.
Qed.
Lemma radius_zone crit rad f vort x y eps dx dy i j v0 z1 m : crit f = Ok vort -> sg vort = vg f -> sf_wf vort -> sf_clean vort -> grid_sorted (vg f) -> on_axis (ax (vg f)) x -> on_axis (ay (vg f)) y ->
  regular_axis (ax (vg f)) dx -> regular_axis (ay (vg f)) dy -> nearest_node (ax (vg f)) x i -> nearest_node (ay (vg f)) y j ->
  shows_at vort (i, j) v0 -> (eps * v0 < v0)%num -> zone (higher vort (eps * v0)%num) (i, j) z1 -> highest vort z1 m -> (eps * m < v0)%num ->
  exists z c, zone (higher vort (eps * m)%num) (i, j) z /\ vortex_radius crit rad f x y eps = Ok (rad (qn (length z) * dx * dy)%num, c).
Proof.
  intros E G W C GS OX OY RX RY Ni Nj S0 P0 Z1 M P1. destruct (radius_lemma crit rad f vort x y eps dx dy i j v0 z1 m) as (z & xc & yc & Z & R & _); auto. exists z, (Some xc, Some yc). auto.
Qed.
Lemma radius_centre crit rad f vort x y eps dx dy i j v0 z1 m z : crit f = Ok vort -> sg vort = vg f -> sf_wf vort -> sf_clean vort -> grid_sorted (vg f) -> on_axis (ax (vg f)) x -> on_axis (ay (vg f)) y ->
  regular_axis (ax (vg f)) dx -> regular_axis (ay (vg f)) dy -> nearest_node (ax (vg f)) x i -> nearest_node (ay (vg f)) y j ->
  shows_at vort (i, j) v0 -> (eps * v0 < v0)%num -> zone (higher vort (eps * v0)%num) (i, j) z1 -> highest vort z1 m -> (eps * m < v0)%num -> zone (higher vort (eps * m)%num) (i, j) z ->
  exists r xc yc, vortex_radius crit rad f x y eps = Ok (r, (Some xc, Some yc)) /\ (0 < cell_sum vort (fun _ v => qabs v) z)%num /\
    (xc * cell_sum vort (fun _ v => qabs v) z = cell_sum vort (fun c v => qabs v * nths (ax (vg f)) (fst c)) z)%num /\
    (yc * cell_sum vort (fun _ v => qabs v) z = cell_sum vort (fun c v => qabs v * nths (ay (vg f)) (snd c)) z)%num /\
    (forall a b, (forall c, In c z -> (a <= nths (ax (vg f)) (fst c) <= b)%num) -> (a <= xc <= b)%num) /\
    (forall a b, (forall c, In c z -> (a <= nths (ay (vg f)) (snd c) <= b)%num) -> (a <= yc <= b)%num).
Proof.
  intros E G W C GS OX OY RX RY Ni Nj S0 P0 Z1 M P1 Z. destruct (radius_lemma crit rad f vort x y eps dx dy i j v0 z1 m) as (z' & xc & yc & Z' & R & P & QX & QY & BX & BY); auto.
  assert (PM := zone_unique _ _ _ _ Z' Z). assert (CS : forall g, cell_sum vort g z' = cell_sum vort g z) by (intro g; unfold cell_sum; apply qsum_perm; now apply Permutation_map).
  rewrite CS in P. rewrite CS, CS in QX. rewrite CS, CS in QY. exists (rad (qn (length z') * dx * dy)%num), xc, yc. split; [exact R|]. split; [exact P|]. split; [exact QX|]. split; [exact QY|].
  split; intros a b H; [apply BX|apply BY]; intros c I; apply H; exact (Permutation_in _ PM I).
Qed.
