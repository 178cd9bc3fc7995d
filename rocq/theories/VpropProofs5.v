(** * VpropProofs5: properties of a vortex (C153). *)
From Coq Require Import Lia.
From Verif Require Import Num Res ListLib SortLib Arr FieldModel ScalarFieldModel VectorFieldModel FieldSpec ProfileModel PointsModel TemporalModel TemporalSpec
  FieldProofs GradProofs AsciiProofs2 TemporalProofs11 VpropModel VpropSpec VpropProofs VpropProofs2 VpropProofs3 VpropProofs4.

Lemma stronger_iff f t c : sf_wf f -> sf_clean f -> (stronger f t c <-> fst c < length (ax (sg f)) /\ snd c < length (ay (sg f)) /\ above (amap oabs (values f)) (Some t) c = true).
Proof.
  intros W C. unfold stronger, above. cbn [amap at_]. split.
  - intros (v & (H1 & H2 & M & E) & L). split; [exact H1|]. split; [exact H2|]. rewrite E. cbn. now apply qltb_lt.
  - intros (H1 & H2 & H). destruct (at_ (values f) (fst c) (snd c)) as [v|] eqn:E; [|discriminate]. exists v. split; [now apply shows_iff|now apply qltb_lt].
Qed.
Lemma strong_zone f t c : sf_wf f -> sf_clean f -> stronger f t c -> zone (stronger f t) c (component (all_cells (d0 (raw f)) (d1 (raw f))) (above (amap oabs (values f)) (Some t)) c).
Proof.
  intros W C H. pose proof W as [[R0 R1] _]. pose proof H as H'. apply stronger_iff in H'; auto. destruct H' as (H1 & H2 & H3).
  apply component_zone; [now rewrite R0|now rewrite R1| |exact H]. intro e. rewrite R0, R1. now apply stronger_iff.
Qed.
Lemma peak_lemma f t c z z0 : sf_wf f -> sf_clean f -> zone (stronger f t) c z -> zone (stronger f t) c z0 -> z <> [] -> exists m, omax (map (at_cell (amap oabs (values f))) z) = Ok (Some m) /\ peak f z0 m.
Proof.
  intros W C Z Z0 N.
  assert (ZC : forall d, In d z -> exists v, shows_at f d v) by (intros d I; apply Z in I; apply joined_in in I; destruct I as (v & Sv & _); eauto).
  assert (NN : forall o, In o (map (at_cell (amap oabs (values f))) z) -> o <> None).
  { intros o I. apply in_map_iff in I. destruct I as (d & <- & I). destruct (ZC _ I) as (v & _ & _ & _ & E). unfold at_cell. cbn [amap at_]. now rewrite E. }
  destruct (omax_some (map (at_cell (amap oabs (values f))) z)) as (m & E & I & A); [destruct z; [congruence|discriminate]|exact NN|].
  exists m. split; [exact E|]. assert (P := zone_unique _ _ _ _ Z Z0). split.
  - apply in_map_iff in I. destruct I as (d & Q & I). destruct (ZC _ I) as (v & Sv). exists d, v. split; [exact (Permutation_in _ P I)|]. split; [exact Sv|].
    destruct Sv as (_ & _ & _ & Q2). unfold at_cell in Q. cbn [amap at_] in Q. rewrite Q2 in Q. now injection Q.
  - intros d v I2 S0. apply A. apply in_map_iff. exists d. split; [destruct S0 as (_ & _ & _ & Q); unfold at_cell; cbn [amap at_]; now rewrite Q|]. exact (Permutation_in _ (Permutation_sym P) I2).
Qed.
Lemma peak_unique f z m m' : peak f z m -> peak f z m' -> m = m'.
Proof. intros [(c & v & I & S0 & <-) A] [(c' & v' & I' & S' & <-) A']. apply Qcle_antisym; eauto. Qed.

(** ** double sums and sums over the cells of a list *)
Lemma qsum_prod (f : nat -> nat -> num) l k : Num.qsum (map (fun c => f (fst c) (snd c)) (list_prod l k)) = Num.qsum (map (fun i => Num.qsum (map (f i) k)) l).
Proof. induction l as [|a l IH]; [reflexivity|]. cbn [list_prod map]. rewrite map_app, qsum_app', qsum_cons, IH, map_map. reflexivity. Qed.
Lemma cell_eqb_refl c : cell_eqb c c = true. Proof. now apply cell_eqb_eq. Qed.
Lemma existsb_cell c z : existsb (cell_eqb c) z = true <-> In c z.
Proof. rewrite existsb_exists. split; [intros (d & I & E); apply cell_eqb_eq in E; now subst|intro I; exists c; split; [exact I|apply cell_eqb_refl]]. Qed.
Lemma qsum_kept (g : cell -> num) all z : NoDup all -> NoDup z -> (forall c, In c z -> In c all) ->
  Num.qsum (map (fun c => if existsb (cell_eqb c) z then g c else 0%num) all) = Num.qsum (map g z).
Proof.
  intros NA NZ I.
  assert (F : forall l, Num.qsum (map (fun c => if existsb (cell_eqb c) z then g c else 0%num) l) = Num.qsum (map g (filter (fun c => existsb (cell_eqb c) z) l))).
  { induction l as [|a l IH]; [reflexivity|]. cbn [map filter]. rewrite qsum_cons, IH. destruct (existsb (cell_eqb a) z); [cbn [map]; now rewrite qsum_cons|qring]. }
  rewrite F. apply qsum_perm. apply Permutation_map. apply NoDup_Permutation; [now apply NoDup_filter|exact NZ|]. intro c. rewrite filter_In, existsb_cell. firstorder.
Qed.
Lemma fsum_prod n m (g : nat -> nat -> num) : fsum n (fun i => fsum m (g i)) = Num.qsum (map (fun c => g (fst c) (snd c)) (all_cells n m)).
Proof. unfold fsum, all_cells. now rewrite qsum_prod. Qed.

Lemma simps2_weights n m : 2 <= n -> 2 <= m -> exists wx wy, weights n wx /\ weights m wy /\
  forall dx dy (g : nat -> nat -> num) a, d0 a = n -> d1 a = m -> (forall i j, i < n -> j < m -> at_ a i j = Some (g i j)) ->
    simps2 dx dy a = Some (dx * dy * Num.qsum (map (fun c => wx (fst c) * wy (snd c) * g (fst c) (snd c)) (all_cells n m)))%num.
Proof.
  intros Ln Lm. destruct (simps_weights n Ln) as (wx & WX & EX). destruct (simps_weights m Lm) as (wy & WY & EY). exists wx, wy. split; [exact WX|]. split; [exact WY|].
  intros dx dy g a Da Db H. unfold simps2. rewrite Da, Db.
  assert (I : map (fun i => simps dy (map (fun j => at_ a i j) (seq 0 m))) (seq 0 n) = map (fun i => Some (dy * fsum m (fun j => wy j * g i j))%num) (seq 0 n)).
  { apply map_ext_in. intros i Hi. apply in_seq in Hi. rewrite <- (EY dy (g i)). f_equal. apply map_ext_in. intros j Hj. apply in_seq in Hj. apply H; lia. }
  rewrite I, EX. f_equal. rewrite <- (fsum_prod n m (fun i j => wx i * wy j * g i j)%num).
  rewrite (fsum_ext n (fun i => (wx i * (dy * fsum m (fun j => wy j * g i j)))%num) (fun i => (dy * fsum m (fun j => wx i * wy j * g i j))%num)).
  - rewrite (fsum_scale n (fun i => fsum m (fun j => (wx i * wy j * g i j)%num))). qring.
  - intros i _. rewrite (fsum_ext m (fun j => (wx i * wy j * g i j)%num) (fun j => (wx i * (wy j * g i j))%num)) by (intros; qring). rewrite (fsum_scale m (fun j => (wy j * g i j)%num)). qring.
Qed.

Lemma still_iff f c : (match at_ (cx f) (fst c) (snd c), at_ (cy f) (fst c) (snd c) with
                       | Some vx, Some vy => (negb (at_ (vmsk f) (fst c) (snd c)) && qeqb vx 0%num && qeqb vy 0%num)%bool | _, _ => false end) = true <-> still_at f c.
Proof.
  unfold still_at. destruct (at_ (cx f) (fst c) (snd c)) as [vx|], (at_ (cy f) (fst c) (snd c)) as [vy|]; try (split; [discriminate|intros (_ & ? & ?); discriminate]).
  rewrite !andb_true_iff, negb_true_iff, !qeqb_eq. split; [intros [[-> ->] ->]; auto|intros (-> & Q1 & Q2)]. injection Q1 as ->. injection Q2 as ->. auto.
Qed.

Lemma property_lemma nx ny : 2 <= nx -> 2 <= ny -> exists wx wy, weights nx wx /\ weights ny wy /\
  forall size prop f s p x y lim dx dy i j v0 z1 m, size f = Ok s -> prop f = Ok p -> length (ax (vg f)) = nx -> length (ay (vg f)) = ny ->
    sg s = vg f -> sg p = vg f -> vf_wf f -> sf_wf s -> sf_clean s -> sf_wf p -> sf_clean p -> grid_sorted (vg f) -> on_axis (ax (vg f)) x -> on_axis (ay (vg f)) y ->
    regular_axis (ax (vg f)) dx -> regular_axis (ay (vg f)) dy -> nearest_node (ax (vg f)) x i -> nearest_node (ay (vg f)) y j ->
    ~ still_at f (i, j) -> shows_at s (i, j) v0 -> (qabs v0 * lim < qabs v0)%num -> zone (stronger s (qabs v0 * lim)%num) (i, j) z1 -> peak s z1 m -> (m * lim < qabs v0)%num ->
    (forall c, stronger s (m * lim)%num c -> exists v, shows_at p c v) ->
    exists z, zone (stronger s (m * lim)%num) (i, j) z /\
      vortex_property size prop f x y lim = Ok (Some (dx * dy * cell_sum p (fun c v => wx (fst c) * wy (snd c) * v) z)%num, unit_mul (unit_mul (uv p) (ux (vg f))) (uy (vg f))).
Proof.
  intros Ln Lm. destruct (simps2_weights nx ny Ln Lm) as (wx & wy & WX & WY & EW). exists wx, wy. split; [exact WX|]. split; [exact WY|].
  intros size prop f s p x y lim dx dy i j v0 z1 m ES EP LX LY GS GP WF WS CS WP CP G OX OY RX RY Ni Nj ST S0 P0 Z1 M P1 SP.
  unfold vortex_property. rewrite ES. cbn [bind]. rewrite EP. cbn [bind]. cbv zeta.
  destruct (nearest_cell_lemma (vg f) x y G OX OY) as (i' & j' & EN & Ni' & Nj'). rewrite <- (nearest_same _ _ _ _ Ni Ni'), <- (nearest_same _ _ _ _ Nj Nj') in EN. rewrite EN. cbn [bind].
  pose proof WS as [[R0 R1] _]. pose proof WP as [[Q0 Q1] _]. pose proof WF as ((F0 & F1) & _). assert (Hi := nearest_in _ _ _ Ni). assert (Hj := nearest_in _ _ _ Nj).
  assert (INf : in_arr (cx f) (i, j) = true) by (unfold in_arr; cbn [fst snd]; rewrite F0, F1; apply andb_true_iff; rewrite !Nat.ltb_lt; auto).
  rewrite INf. cbn [negb guard].
  match goal with |- context [guard ?b ValueErr _] => destruct b eqn:BS end; [exfalso; apply ST; now apply still_iff in BS|]. cbn [guard].
  assert (INs : in_arr (amap oabs (values s)) (i, j) = true) by (unfold in_arr; cbn [amap values d0 d1 fst snd]; rewrite R0, R1, GS; apply andb_true_iff; rewrite !Nat.ltb_lt; auto).
  rewrite INs. cbn [negb guard].
  assert (E0 : at_cell (amap oabs (values s)) (i, j) = Some (qabs v0)) by (destruct S0 as (_ & _ & _ & Q); unfold at_cell; cbn [amap at_ fst snd]; cbn [fst snd] in Q; rewrite Q; reflexivity). rewrite E0. cbn [omul]. change (lift2 Qcmult (Some (qabs v0)) (Some lim)) with (Some (qabs v0 * lim)%num).
  assert (H0 : stronger s (qabs v0 * lim)%num (i, j)) by (exists v0; auto). assert (H0' := H0). apply stronger_iff in H0'; auto. destruct H0' as (_ & _ & H0').
  unfold omul in *. cbn [lift2] in *. change (Qcmult (qabs v0) lim) with (qabs v0 * lim)%num. rewrite H0'. cbn [negb].
  assert (ZA := strong_zone s _ _ WS CS H0). set (za := component _ _ _) in ZA. cbn [amap values d0 d1].
  destruct (peak_lemma s _ _ za z1 WS CS ZA Z1) as (m' & EM & M').
  { intro Q. assert (X : In (i, j) za) by (apply ZA; now constructor). now rewrite Q in X. }
  match goal with |- context [omax ?l] => change l with (map (at_cell (amap oabs (values s))) za) end. rewrite EM. cbn [bind].
  pose proof (peak_unique _ _ _ _ M' M). subst m'. cbn [lift2].
  assert (H1 : stronger s (m * lim)%num (i, j)) by (exists v0; auto). assert (H1' := H1). apply stronger_iff in H1'; auto. destruct H1' as (_ & _ & H1').
  assert (ZB := strong_zone s _ _ WS CS H1). unfold same_label. rewrite H1'. set (z := component _ _ _) in ZB.
  exists z. split; [exact ZB|]. rewrite (step1_reg _ _ RX), (step1_reg _ _ RY). cbn [bind]. rewrite GP. f_equal. f_equal.
  match goal with |- simps2 dx dy ?a = _ => rewrite (EW dx dy (fun i j => if existsb (cell_eqb (i, j)) z then match at_ (values p) i j with Some v => v | None => 0%num end else 0%num) a) end; [|cbn [d0 d1 values]..].
  - f_equal. f_equal. unfold cell_sum.
    etransitivity; [|apply (qsum_kept (fun c => match at_ (values p) (fst c) (snd c) with Some v => (wx (fst c) * wy (snd c) * v)%num | None => 0%num end) (all_cells nx ny) z)].
    + f_equal. apply map_ext. intros [a b]. cbn [fst snd]. destruct (existsb (cell_eqb (a, b)) z); [|qring]. destruct (at_ (values p) a b); qring.
    + apply all_nodup.
    + apply ZB.
    + intros c I. apply in_all. apply ZB in I. apply joined_in in I. destruct I as (v & (X1 & X2 & _) & _). rewrite GS in X1, X2. lia.
  - rewrite Q0, GP. exact LX.
  - rewrite Q1, GP. exact LY.
  - intros a b La Lb. cbn [at_]. change (existsb (cell_eqb (a, b)) (component (all_cells (d0 (raw s)) (d1 (raw s))) (above (amap oabs (values s)) (Some (m * lim)%num)) (i, j))) with (existsb (cell_eqb (a, b)) z).
    destruct (existsb (cell_eqb (a, b)) z) eqn:EB; [|reflexivity]. apply existsb_cell in EB. apply ZB in EB. apply joined_in in EB. destruct (SP _ EB) as (v & _ & _ & _ & Q). cbn [fst snd] in Q. cbn [at_]. now rewrite Q.
Qed.

Lemma property_uniform size prop f s p x y lim dx dy i j v0 z1 m v : size f = Ok s -> prop f = Ok p ->
  sg s = vg f -> sg p = vg f -> vf_wf f -> sf_wf s -> sf_clean s -> sf_wf p -> sf_clean p -> grid_sorted (vg f) -> on_axis (ax (vg f)) x -> on_axis (ay (vg f)) y ->
  regular_axis (ax (vg f)) dx -> regular_axis (ay (vg f)) dy -> nearest_node (ax (vg f)) x i -> nearest_node (ay (vg f)) y j ->
  ~ still_at f (i, j) -> shows_at s (i, j) v0 -> (qabs v0 * lim < qabs v0)%num -> zone (stronger s (qabs v0 * lim)%num) (i, j) z1 -> peak s z1 m -> (m * lim < qabs v0)%num ->
  (forall c, fst c < length (ax (vg f)) -> snd c < length (ay (vg f)) -> shows_at p c v) ->
  (forall c, fst c < length (ax (vg f)) -> snd c < length (ay (vg f)) -> joined (stronger s (m * lim)%num) (i, j) c) ->
  vortex_property size prop f x y lim = Ok (Some (v * (qn (length (ax (vg f)) - 1) * dx) * (qn (length (ay (vg f)) - 1) * dy))%num, unit_mul (unit_mul (uv p) (ux (vg f))) (uy (vg f))).
Proof.
  intros ES EP GS GP WF WS CS WP CP G OX OY RX RY Ni Nj ST S0 P0 Z1 M P1 U J.
  destruct (property_lemma (length (ax (vg f))) (length (ay (vg f)))) as (wx & wy & [_ WX] & [_ WY] & H); [apply RX|apply RY|].
  destruct (H size prop f s p x y lim dx dy i j v0 z1 m) as (z & Z & E); auto.
  { intros c (w & (X1 & X2 & _) & _). exists v. rewrite GS in X1, X2. now apply U. }
  rewrite E. f_equal. f_equal. f_equal.
  assert (PM : Permutation z (all_cells (length (ax (vg f))) (length (ay (vg f))))).
  { apply NoDup_Permutation; [apply Z|apply all_nodup|]. intro c. rewrite in_all. split; [|intros [L1 L2]; apply Z; auto]. intro I. apply Z in I. apply joined_in in I. destruct I as (w & (X1 & X2 & _) & _). rewrite GS in X1, X2. auto. }
  assert (X : cell_sum p (fun c w => wx (fst c) * wy (snd c) * w)%num z = (v * qn (length (ax (vg f)) - 1) * qn (length (ay (vg f)) - 1))%num).
  { unfold cell_sum. erewrite (qsum_perm (map _ z)); [|apply Permutation_map; exact PM].
    transitivity (Num.qsum (map (fun c => (fun i j => wx i * wy j * v)%num (fst c) (snd c)) (all_cells (length (ax (vg f))) (length (ay (vg f)))))).
    - f_equal. apply map_ext_in. intros c I. apply in_all in I. destruct (U c) as (_ & _ & _ & Q); try tauto. now rewrite Q.
    - rewrite <- (fsum_prod _ _ (fun i j => wx i * wy j * v)%num). fold (fsum (length (ax (vg f))) wx) in WX. fold (fsum (length (ay (vg f))) wy) in WY.
      rewrite (fsum_ext _ _ (fun i => (v * qn (length (ay (vg f)) - 1)) * wx i)%num).
      + rewrite (fsum_scale _ wx), WX. qring.
      + intros k _. rewrite (fsum_ext _ _ (fun j => (wx k * v) * wy j)%num) by (intros; qring). rewrite (fsum_scale _ wy), WY. qring. }
  rewrite X. qring.
Qed.
Lemma property_still size prop f s p x y lim i j : size f = Ok s -> prop f = Ok p -> vf_wf f -> grid_sorted (vg f) -> on_axis (ax (vg f)) x -> on_axis (ay (vg f)) y ->
  nearest_node (ax (vg f)) x i -> nearest_node (ay (vg f)) y j -> still_at f (i, j) -> vortex_property size prop f x y lim = Err ValueErr.
Proof.
  intros ES EP WF G OX OY Ni Nj ST. unfold vortex_property. rewrite ES. cbn [bind]. rewrite EP. cbn [bind]. cbv zeta.
  destruct (nearest_cell_lemma (vg f) x y G OX OY) as (i' & j' & EN & Ni' & Nj'). rewrite <- (nearest_same _ _ _ _ Ni Ni'), <- (nearest_same _ _ _ _ Nj Nj') in EN. rewrite EN. cbn [bind].
  pose proof WF as ((F0 & F1) & _). assert (Hi := nearest_in _ _ _ Ni). assert (Hj := nearest_in _ _ _ Nj).
  assert (INf : in_arr (cx f) (i, j) = true) by (unfold in_arr; cbn [fst snd]; rewrite F0, F1; apply andb_true_iff; rewrite !Nat.ltb_lt; auto).
  rewrite INf. cbn [negb guard]. apply still_iff in ST. now rewrite ST.
Qed.
(** no vortex at the point: the value there is not over its own threshold, or is hidden *)
Lemma property_absent size prop f s p x y lim i j : size f = Ok s -> prop f = Ok p -> sg s = vg f -> sg p = vg f -> vf_wf f -> sf_wf s -> sf_clean s -> grid_sorted (vg f) -> on_axis (ax (vg f)) x -> on_axis (ay (vg f)) y ->
  nearest_node (ax (vg f)) x i -> nearest_node (ay (vg f)) y j -> ~ still_at f (i, j) -> (forall v, shows_at s (i, j) v -> (qabs v <= qabs v * lim)%num) ->
  vortex_property size prop f x y lim = Ok (Some 0%num, unit_mul (unit_mul (uv p) (ux (vg f))) (uy (vg f))).
Proof.
  intros ES EP GS GP WF WS CS G OX OY Ni Nj ST NV. unfold vortex_property. rewrite ES. cbn [bind]. rewrite EP. cbn [bind]. cbv zeta.
  destruct (nearest_cell_lemma (vg f) x y G OX OY) as (i' & j' & EN & Ni' & Nj'). rewrite <- (nearest_same _ _ _ _ Ni Ni'), <- (nearest_same _ _ _ _ Nj Nj') in EN. rewrite EN. cbn [bind].
  pose proof WS as [[R0 R1] _]. pose proof WF as ((F0 & F1) & _). assert (Hi := nearest_in _ _ _ Ni). assert (Hj := nearest_in _ _ _ Nj).
  assert (INf : in_arr (cx f) (i, j) = true) by (unfold in_arr; cbn [fst snd]; rewrite F0, F1; apply andb_true_iff; rewrite !Nat.ltb_lt; auto).
  rewrite INf. cbn [negb guard].
  match goal with |- context [guard ?b ValueErr _] => destruct b eqn:BS end; [exfalso; apply ST; now apply still_iff in BS|]. cbn [guard].
  assert (INs : in_arr (amap oabs (values s)) (i, j) = true) by (unfold in_arr; cbn [amap values d0 d1 fst snd]; rewrite R0, R1, GS; apply andb_true_iff; rewrite !Nat.ltb_lt; auto).
  rewrite INs. cbn [negb guard]. rewrite GP.
  match goal with |- context [above ?a ?t (i, j)] => assert (above a t (i, j) = false) as -> end; [|reflexivity].
  unfold above, at_cell. cbn [amap at_ fst snd]. destruct (at_ (values s) i j) as [v|] eqn:E; [|reflexivity]. cbn [oabs option_map omul lift2]. apply qltb_ge. apply (NV v). apply shows_iff; auto; rewrite GS; assumption.
Qed.
