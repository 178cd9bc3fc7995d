(** * Vf2Proofs2: sums, products and quotients of a vector field by numbers, arrays and quantities; equality. *)
From Coq Require Import Lia.
From Verif Require Import Num Res ListLib Arr FieldModel ScalarFieldModel VectorFieldModel PointsModel TemporalModel AsciiModel SpatialModel FieldSpec FieldProofs FieldProofs2 ScalarProofs FieldProofs3
  TurbProofs GradSpec GradProofs GradProofs2 SpatialSpec Vf2Model Vf2Spec Vf2Proofs.
From Verif Require CritProofs6.

Lemma acts_cells f r (U : num -> num -> bool -> bool -> Prop) (A : num -> num -> num -> num -> num -> num -> Prop) : vg r = vg f -> vf_wf r ->
  (forall i j, i < length (ax (vg f)) -> j < length (ay (vg f)) -> let x := nths (ax (vg f)) i in let y := nths (ay (vg f)) j in
     U x y (at_ (vmsk f) i j) (at_ (vmsk r) i j) /\
     (at_ (vmsk r) i j = true -> at_ (cx r) i j = None /\ at_ (cy r) i j = None) /\
     (at_ (vmsk r) i j = false -> exists a b a' b', at_ (cx f) i j = Some a /\ at_ (cy f) i j = Some b /\ at_ (cx r) i j = Some a' /\ at_ (cy r) i j = Some b' /\ A x y a b a' b')) ->
  acts f r U A.
Proof.
  intros G W H. split; [exact G|]. split; [exact W|]. split.
  - intros x y v w m (i & j & E1 & E2 & <- & <- & <-). rewrite G in E1, E2.
    destruct (H i j) as (_ & H1 & H2); [eapply nth_error_Some_lt; eauto|eapply nth_error_Some_lt; eauto|].
    destruct (at_ (vmsk r) i j); [destruct (H1 eq_refl) as [-> ->]; tauto|].
    destruct (H2 eq_refl) as (a & b & a' & b' & _ & _ & -> & -> & _). split; split; discriminate.
  - intros x y v w m (i & j & E1 & E2 & <- & <- & <-).
    destruct (H i j) as (H0 & H1 & H2); [eapply nth_error_Some_lt; eauto|eapply nth_error_Some_lt; eauto|].
    rewrite (nth_error_nths _ _ _ E1), (nth_error_nths _ _ _ E2) in H0, H2.
    exists (at_ (cx r) i j), (at_ (cy r) i j), (at_ (vmsk r) i j). split; [exists i, j; rewrite G; auto|]. split; [exact H0|].
    intro M. destruct (H2 M) as (a & b & a' & b' & P1 & P2 & P3 & P4 & P5). exists a, b, a', b'. auto.
Qed.
Lemma tidy_some f i j : vf_tidy f -> i < length (ax (vg f)) -> j < length (ay (vg f)) -> at_ (vmsk f) i j = false ->
  exists a b, at_ (cx f) i j = Some a /\ at_ (cy f) i j = Some b.
Proof.
  intros T Hi Hj M. destruct (tidy_at f i j T Hi Hj) as [A B]. rewrite M in A, B.
  destruct (at_ (cx f) i j) as [a|], (at_ (cy f) i j) as [b|]; try discriminate. eauto.
Qed.
Lemma no_reveal (a b : arr bool) : (forall i j, i < d0 a -> j < d1 a -> at_ a i j = true -> at_ b i j = true) ->
  existsb (fun p => at_ a (fst p) (snd p) && negb (at_ b (fst p) (snd p)))%bool (aidx (d0 a) (d1 a)) = false.
Proof.
  intro H. apply not_true_iff_false. intro E. apply existsb_exists in E. destruct E as ((i & j) & Hp & E). apply in_aidx in Hp.
  cbn [fst snd] in E. apply andb_true_iff in E. destruct E as [E1 E2]. rewrite (H i j) in E2 by tauto. discriminate.
Qed.
(** the three setters *)
Lemma set3_run f vx vy m : vf_wf f -> has_shape vx (length (ax (vg f))) (length (ay (vg f))) -> has_shape vy (length (ax (vg f))) (length (ay (vg f))) ->
  has_shape m (length (ax (vg f))) (length (ay (vg f))) ->
  (forall i j, i < length (ax (vg f)) -> j < length (ay (vg f)) -> at_ (vmsk f) i j = true -> at_ m i j = true) ->
  (let* f1 := vf_set_comp_x f vx in let* f2 := vf_set_comp_y f1 vy in vf_set_mask f2 m) = Ok (mkvf (vg f) (nanify m vx) (nanify m vy) m (vuv f)).
Proof.
  intros (W1 & W2 & W3) Hx Hy Hm R. unfold vf_set_comp_x. assert (shape_is vx (vg f) = true) as -> by (apply shape_is_iff; unfold has_shape in *; cbn; tauto). cbn [bind].
  unfold vf_set_comp_y. cbn [vg cx cy vmsk vuv]. assert (shape_is vy (vg f) = true) as -> by (apply shape_is_iff; unfold has_shape in *; cbn; tauto). cbn [bind].
  unfold vf_set_mask. cbn [vg cx cy vmsk vuv]. assert (shape_is m (vg f) = true) as -> by (apply shape_is_iff; unfold has_shape in *; cbn; tauto). cbn [negb guard].
  rewrite no_reveal; [reflexivity|]. destruct W3 as [-> ->]. exact R.
Qed.

(** ** sums *)
Lemma shift_acts f (s t : arr num) : vf_wf f -> vf_tidy f -> has_shape s (length (ax (vg f))) (length (ay (vg f))) -> has_shape t (length (ax (vg f))) (length (ay (vg f))) ->
  exists r, vf_shift f (amap Some s) (amap Some t) = Ok r /\ vuv r = vuv f /\
    acts f r same_mask (fun x y a b a' b' => exists p q, arr_at (vg f) s x y p /\ arr_at (vg f) t x y q /\ (a' = a + p)%num /\ (b' = b + q)%num).
Proof.
  intros W T Hs Ht. unfold vf_shift. destruct W as ([W1 W2] & [W3 W4] & [W5 W6]).
  rewrite set3_run; [|repeat split; assumption|split; assumption|split; assumption|split; assumption|auto].
  eexists. split; [reflexivity|]. split; [reflexivity|]. apply acts_cells; [reflexivity|repeat split; assumption|].
  intros i j Hi Hj. cbv zeta. cbn. split; [reflexivity|]. split; [intros ->; auto|]. intro M. rewrite M.
  destruct (tidy_some f i j T Hi Hj M) as (a & b & -> & ->). exists a, b, (a + at_ s i j)%num, (b + at_ t i j)%num. repeat split.
  exists (at_ s i j), (at_ t i j). split; [exists i, j|split; [exists i, j|auto]]; (split; [now apply nths_nth_error|split; [now apply nths_nth_error|reflexivity]]).
Qed.
Lemma vf_add_num_acts f c : vf_wf f -> vf_tidy f -> exists r, vf_add_num f c = Ok r /\ vuv r = vuv f /\
  acts f r same_mask (fun _ _ a b a' b' => (a' = a + c)%num /\ (b' = b + c)%num).
Proof.
  intros W T. destruct (shift_acts f (afull (length (ax (vg f))) (length (ay (vg f))) c) (afull (length (ax (vg f))) (length (ay (vg f))) c) W T) as (r & E & U & A);
    [split; reflexivity|split; reflexivity|]. exists r. split; [exact E|]. split; [exact U|].
  destruct A as (A1 & A2 & A3 & A4). split; [exact A1|]. split; [exact A2|]. split; [exact A3|]. intros x y v w m H.
  destruct (A4 x y v w m H) as (v' & w' & m' & B1 & B2 & B3). exists v', w', m'. split; [exact B1|]. split; [exact B2|]. intro M.
  destruct (B3 M) as (a & b & a' & b' & D1 & D2 & D3 & D4 & p & q & (? & ? & _ & _ & D5) & (? & ? & _ & _ & D6) & D7 & D8). cbn in D5, D6. subst p q. exists a, b, a', b'. auto 10.
Qed.
Lemma vf_add_vec_acts f c d : vf_wf f -> vf_tidy f -> exists r, vf_add_vec f c d = Ok r /\ vuv r = vuv f /\
  acts f r same_mask (fun _ _ a b a' b' => (a' = a + c)%num /\ (b' = b + d)%num).
Proof.
  intros W T. destruct (shift_acts f (afull (length (ax (vg f))) (length (ay (vg f))) c) (afull (length (ax (vg f))) (length (ay (vg f))) d) W T) as (r & E & U & A);
    [split; reflexivity|split; reflexivity|]. exists r. split; [exact E|]. split; [exact U|].
  destruct A as (A1 & A2 & A3 & A4). split; [exact A1|]. split; [exact A2|]. split; [exact A3|]. intros x y v w m H.
  destruct (A4 x y v w m H) as (v' & w' & m' & B1 & B2 & B3). exists v', w', m'. split; [exact B1|]. split; [exact B2|]. intro M.
  destruct (B3 M) as (a & b & a' & b' & D1 & D2 & D3 & D4 & p & q & (? & ? & _ & _ & D5) & (? & ? & _ & _ & D6) & D7 & D8). cbn in D5, D6. subst p q. exists a, b, a', b'. auto 10.
Qed.
Lemma same_dims_iff {A} (o : arr A) f : same_dims o f = true <-> has_shape o (length (ax (vg f))) (length (ay (vg f))).
Proof. unfold same_dims, has_shape. rewrite andb_true_iff, !Nat.eqb_eq. tauto. Qed.
Lemma vf_add_arr_acts f (o : arr num) : vf_wf f -> vf_tidy f -> has_shape o (length (ax (vg f))) (length (ay (vg f))) ->
  exists r, vf_add_arr f (amap Some o) = Ok r /\ vuv r = vuv f /\
    acts f r same_mask (fun x y a b a' b' => exists t, arr_at (vg f) o x y t /\ (a' = a + t)%num /\ (b' = b + t)%num).
Proof.
  intros W T H. unfold vf_add_arr. assert (same_dims (amap Some o) f = true) as -> by (apply same_dims_iff; unfold has_shape in *; cbn; tauto). cbn [negb guard].
  unfold vf_shift. destruct W as ([W1 W2] & [W3 W4] & [W5 W6]).
  rewrite set3_run; [|repeat split; assumption|split; assumption|split; assumption|split; assumption|auto].
  eexists. split; [reflexivity|]. split; [reflexivity|]. apply acts_cells; [reflexivity|repeat split; assumption|].
  intros i j Hi Hj. cbv zeta. cbn. split; [reflexivity|]. split; [intros ->; auto|]. intro M. rewrite M.
  destruct (tidy_some f i j T Hi Hj M) as (a & b & -> & ->). exists a, b, (a + at_ o i j)%num, (b + at_ o i j)%num. repeat split.
  exists (at_ o i j). split; [exists i, j; (split; [now apply nths_nth_error|split; [now apply nths_nth_error|reflexivity]])|auto].
Qed.
Lemma vf_add_arr_bad f (o : arr onum) : ~ has_shape o (length (ax (vg f))) (length (ay (vg f))) -> vf_add_arr f o = Err ValueErr /\ vf_mul_arr f o = Err ValueErr.
Proof.
  intro H. assert (same_dims o f = false) as E by (apply not_true_iff_false; now rewrite same_dims_iff). unfold vf_add_arr, vf_mul_arr. now rewrite E.
Qed.

(** ** products *)
Lemma vf_mul_num_acts f c : vf_wf f -> vf_tidy f -> acts f (vf_mul_num f c) same_mask (fun _ _ a b a' b' => (a' = a * c)%num /\ (b' = b * c)%num) /\ vuv (vf_mul_num f c) = vuv f.
Proof.
  intros ([W1 W2] & [W3 W4] & [W5 W6]) T. split; [|reflexivity]. apply acts_cells; [reflexivity|repeat split; assumption|].
  intros i j Hi Hj. cbv zeta. cbn. split; [reflexivity|]. split; [intros ->; auto|]. intro M. rewrite M.
  destruct (tidy_some f i j T Hi Hj M) as (a & b & -> & ->). exists a, b, (a * c)%num, (b * c)%num. repeat split.
Qed.
Lemma vf_div_num_acts f c : c <> 0%num -> vf_wf f -> vf_tidy f ->
  acts f (vf_div_num f c) same_mask (fun _ _ a b a' b' => (a' * c = a)%num /\ (b' * c = b)%num) /\ vuv (vf_div_num f c) = vuv f.
Proof.
  intros N ([W1 W2] & [W3 W4] & [W5 W6]) T. split; [|reflexivity]. apply acts_cells; [reflexivity|repeat split; assumption|].
  intros i j Hi Hj. cbv zeta. cbn. split; [reflexivity|]. split; [intros ->; auto|]. intro M. rewrite M.
  destruct (tidy_some f i j T Hi Hj M) as (a & b & -> & ->). exists a, b, (a / c)%num, (b / c)%num.
  unfold odiv. destruct (qeqb_spec c 0) as [E|_]; [contradiction|]. repeat split; now apply qdiv_mul.
Qed.
Lemma vf_mul_arr_acts f (o : arr num) : vf_wf f -> vf_tidy f -> has_shape o (length (ax (vg f))) (length (ay (vg f))) ->
  exists r, vf_mul_arr f (amap Some o) = Ok r /\ vuv r = vuv f /\
    acts f r same_mask (fun x y a b a' b' => exists t, arr_at (vg f) o x y t /\ (a' = a * t)%num /\ (b' = b * t)%num).
Proof.
  intros W T H. unfold vf_mul_arr. assert (same_dims (amap Some o) f = true) as -> by (apply same_dims_iff; unfold has_shape in *; cbn; tauto). cbn [negb guard].
  unfold vf_times. destruct W as ([W1 W2] & [W3 W4] & [W5 W6]).
  rewrite set3_run; [|repeat split; assumption|split; assumption|split; assumption|split; assumption|auto].
  eexists. split; [reflexivity|]. split; [reflexivity|]. apply acts_cells; [reflexivity|repeat split; assumption|].
  intros i j Hi Hj. cbv zeta. cbn. split; [reflexivity|]. split; [intros ->; auto|]. intro M. rewrite M.
  destruct (tidy_some f i j T Hi Hj M) as (a & b & -> & ->). exists a, b, (a * at_ o i j)%num, (b * at_ o i j)%num. repeat split.
  exists (at_ o i j). split; [exists i, j; (split; [now apply nths_nth_error|split; [now apply nths_nth_error|reflexivity]])|auto].
Qed.
(** the cells where the array is 0 are masked *)
Lemma vf_div_arr_acts f (o : arr num) : grid_sorted (vg f) -> vf_wf f -> vf_tidy f -> has_shape o (length (ax (vg f))) (length (ay (vg f))) ->
  exists r, vf_div_arr f (amap Some o) = Ok r /\ vuv r = vuv f /\
    acts f r (fun x y m m' => m' = true <-> m = true \/ arr_at (vg f) o x y 0%num)
      (fun x y a b a' b' => exists t, arr_at (vg f) o x y t /\ (a' * t = a)%num /\ (b' * t = b)%num).
Proof.
  intros [SX SY] W T H. unfold vf_div_arr. assert (shape_is (amap Some o) (vg f) = true) as -> by (apply shape_is_iff; unfold has_shape in *; cbn; tauto). cbn [negb guard].
  destruct W as ([W1 W2] & [W3 W4] & [W5 W6]).
  rewrite set3_run; [|repeat split; assumption|split; assumption|split; assumption|split; assumption|].
  2:{ intros i j _ _ E. cbn. now rewrite E. }
  eexists. split; [reflexivity|]. split; [reflexivity|]. apply acts_cells; [reflexivity|repeat split; assumption|].
  intros i j Hi Hj. cbv zeta. cbn. split.
  - rewrite orb_true_iff, qeqb_eq. split; intros [E|E]; auto; right.
    + exists i, j. (split; [now apply nths_nth_error|split; [now apply nths_nth_error|exact E]]).
    + destruct E as (i' & j' & E1 & E2 & E3).
      assert (i' = i) as ->. { apply (increasing_inj _ _ _ SX); eauto using nth_error_Some_lt. now rewrite (nth_error_nths _ _ _ E1). }
      assert (j' = j) as ->. { apply (increasing_inj _ _ _ SY); eauto using nth_error_Some_lt. now rewrite (nth_error_nths _ _ _ E2). }
      exact E3.
  - split; [intros ->; auto|]. intro M. rewrite M. apply orb_false_iff in M. destruct M as [M Z].
    destruct (tidy_some f i j T Hi Hj M) as (a & b & -> & ->). unfold odiv. rewrite Z. exists a, b, (a / at_ o i j)%num, (b / at_ o i j)%num.
    apply qeqb_neq in Z. repeat split. exists (at_ o i j).
    split; [exists i, j; (split; [now apply nths_nth_error|split; [now apply nths_nth_error|reflexivity]])|]. split; now apply qdiv_mul.
Qed.
(** a scalar field on the same axes: the product of the raw values, in the unit of f *)
Lemma vf_mul_sf_acts f s : grid_sorted (vg f) -> vf_wf f -> vf_tidy f -> sf_wf s -> sf_clean s -> ax (sg s) = ax (vg f) -> ay (sg s) = ay (vg f) ->
  exists r, vf_mul_sf f s = Ok r /\ vuv r = vuv f /\
    acts f r (fun x y m m' => m' = true <-> m = true \/ exists t, sf_shows s x y t true)
      (fun x y a b a' b' => exists t, sf_shows s x y (Some t) false /\ (a' = a * t)%num /\ (b' = b * t)%num).
Proof.
  intros [SX SY] W T [[V1 V2] [V3 V4]] C EX EY. unfold vf_mul_sf. rewrite EX, EY, !Nat.eqb_refl. cbn [andb negb guard]. unfold vf_times.
  destruct W as ([W1 W2] & [W3 W4] & [W5 W6]).
  rewrite set3_run; [|repeat split; assumption|split; assumption|split; assumption|split; [rewrite <- EX|rewrite <- EY]; assumption|].
  2:{ intros i j _ _ E. cbn. rewrite E. apply orb_true_r. }
  eexists. split; [reflexivity|]. split; [reflexivity|]. apply acts_cells; [reflexivity|repeat split; cbn; congruence|].
  intros i j Hi Hj. cbv zeta.
  assert (SH : sf_shows s (nths (ax (vg f)) i) (nths (ay (vg f)) j) (at_ (values s) i j) (at_ (msk s) i j)).
  { exists i, j. rewrite EX, EY. (split; [now apply nths_nth_error|split; [now apply nths_nth_error|auto]]). }
  cbn [cx cy vmsk nanify amap2 at_]. split.
  - rewrite orb_true_iff. split; [intros [E|E]|intros [E|[t E]]]; auto.
    + right. rewrite E in SH. eauto.
    + left. destruct E as (i' & j' & E1 & E2 & _ & E4). rewrite EX in E1. rewrite EY in E2.
      assert (i' = i) as ->. { apply (increasing_inj _ _ _ SX); eauto using nth_error_Some_lt. now rewrite (nth_error_nths _ _ _ E1). }
      assert (j' = j) as ->. { apply (increasing_inj _ _ _ SY); eauto using nth_error_Some_lt. now rewrite (nth_error_nths _ _ _ E2). }
      exact E4.
  - split; [intros ->; auto|]. intro M. rewrite M. apply orb_false_iff in M. destruct M as [M M'].
    destruct (tidy_some f i j T Hi Hj M') as (a & b & -> & ->). rewrite M in SH. destruct (C _ _ _ _ SH) as [C1 _].
    destruct (at_ (values s) i j) as [t|]; [|specialize (C1 eq_refl); discriminate].
    exists a, b, (a * t)%num, (b * t)%num. repeat split. exists t. auto.
Qed.
(** by a quantity *)
Lemma vf_mul_unum_acts norm f c u : normal_form norm -> (c <> 0)%num -> good_unit u -> good_unit (vuv f) -> vf_wf f -> vf_tidy f ->
  exists r, vf_mul_unum norm f c u = Ok r /\ dim (vuv r) = dim_add (dim (vuv f)) (dim u) /\
    acts f r same_mask (fun _ _ a b a' b' => (a' * sc (vuv r) = a * sc (vuv f) * (c * sc u))%num /\ (b' * sc (vuv r) = b * sc (vuv f) * (c * sc u))%num).
Proof.
  intros NF Nc Gu Gf W T. unfold vf_mul_unum. specialize (NF (unit_mul (vuv f) u)). destruct (norm (unit_mul (vuv f) u)) as [k w]. destruct NF as [D K]. cbn [unit_mul sc dim] in D, K.
  assert (P : (0 < sc (vuv f) * sc u)%num) by (now apply qmul_pos).
  assert (k <> 0)%num as Nk. { intros ->. rewrite <- K in P. replace (0 * sc w)%num with 0%num in P by qring. now apply qlt_irrefl in P. }
  destruct (qeqb_spec (c * k) 0) as [E|_].
  { apply Qcmult_integral in E. change (Q2Qc 0) with (qz 0) in E. destruct E; contradiction. }
  cbn [guard]. unfold vf_times. destruct W as ([W1 W2] & [W3 W4] & [W5 W6]).
  rewrite set3_run; [|repeat split; assumption|split; assumption|split; assumption|split; assumption|auto].
  eexists. split; [reflexivity|]. split; [exact D|]. apply acts_cells; [reflexivity|repeat split; assumption|].
  intros i j Hi Hj. cbv zeta. cbn. split; [reflexivity|]. split; [intros ->; auto|]. intro M. rewrite M.
  destruct (tidy_some f i j T Hi Hj M) as (a & b & -> & ->). exists a, b, (a * (c * k))%num, (b * (c * k))%num. repeat split.
  - replace (a * (c * k) * sc w)%num with (a * c * (k * sc w))%num by qring. rewrite K. qring.
  - replace (b * (c * k) * sc w)%num with (b * c * (k * sc w))%num by qring. rewrite K. qring.
Qed.
Lemma vf_div_unum_acts norm f c u : normal_form norm -> (c <> 0)%num -> good_unit u -> good_unit (vuv f) -> vf_wf f -> vf_tidy f ->
  exists r, vf_div_unum norm f c u = Ok r /\ dim (vuv r) = dim_add (dim (vuv f)) (map Z.opp (dim u)) /\
    acts f r same_mask (fun _ _ a b a' b' => (a' * sc (vuv r) * (c * sc u) = a * sc (vuv f))%num /\ (b' * sc (vuv r) * (c * sc u) = b * sc (vuv f))%num).
Proof.
  intros NF Nc Gu Gf W T. unfold vf_div_unum. specialize (NF (unit_div (vuv f) u)). destruct (norm (unit_div (vuv f) u)) as [k w]. destruct NF as [D K]. cbn [unit_div sc dim] in D, K.
  assert (U : sc u <> 0%num) by (now apply qgt_neq).
  pose proof (qdiv_mul (sc (vuv f)) (sc u) U) as Q. rewrite <- K in Q.
  assert (k <> 0)%num as Nk. { intros ->. replace (0 * sc w * sc u)%num with 0%num in Q by qring. unfold good_unit in Gf. rewrite <- Q in Gf. now apply qlt_irrefl in Gf. }
  destruct (qeqb_spec c 0) as [E|_]; [contradiction|]. destruct (qeqb_spec k 0) as [E|_]; [contradiction|].
  cbn [orb guard]. unfold vf_times. destruct W as ([W1 W2] & [W3 W4] & [W5 W6]).
  rewrite set3_run; [|repeat split; assumption|split; assumption|split; assumption|split; assumption|auto].
  eexists. split; [reflexivity|]. split; [exact D|]. apply acts_cells; [reflexivity|repeat split; assumption|].
  intros i j Hi Hj. cbv zeta. cbn. split; [reflexivity|]. split; [intros ->; auto|]. intro M. rewrite M.
  destruct (tidy_some f i j T Hi Hj M) as (a & b & -> & ->). exists a, b, (a * (k / c))%num, (b * (k / c))%num.
  pose proof (qdiv_mul k c Nc) as R. repeat split.
  - replace (a * (k / c) * sc w * (c * sc u))%num with (a * ((k / c * c) * sc w * sc u))%num by qring. rewrite R, Q. reflexivity.
  - replace (b * (k / c) * sc w * (c * sc u))%num with (b * ((k / c * c) * sc w * sc u))%num by qring. rewrite R, Q. reflexivity.
Qed.

Lemma vf_abs_acts f : vf_wf f -> vf_tidy f -> acts f (vf_abs f) same_mask (fun _ _ a b a' b' => a' = qabs a /\ b' = qabs b) /\ vuv (vf_abs f) = vuv f.
Proof.
  intros ([W1 W2] & [W3 W4] & [W5 W6]) T. split; [|reflexivity]. apply acts_cells; [reflexivity|repeat split; assumption|].
  intros i j Hi Hj. cbv zeta. cbn. split; [reflexivity|]. split.
  - intro M. destruct (tidy_at f i j T Hi Hj) as [A B]. rewrite M in A, B. destruct (at_ (cx f) i j), (at_ (cy f) i j); try discriminate. auto.
  - intro M. destruct (tidy_some f i j T Hi Hj M) as (a & b & -> & ->). exists a, b, (qabs a), (qabs b). repeat split.
Qed.
(** ** differences *)
Lemma neg_shows h x y v w m : vf_shows (vf_neg h) x y v w m <-> vf_shows h x y (option_map Qcopp v) (option_map Qcopp w) m.
Proof.
  unfold vf_shows. cbn. split; intros (i & j & E1 & E2 & E3 & E4 & E5); exists i, j; (split; [exact E1|]); (split; [exact E2|]); (split; [|split; [|exact E5]]).
  - rewrite <- E3. destruct (at_ (cx h) i j) as [a|]; cbn; [|reflexivity]. f_equal. qring.
  - rewrite <- E4. destruct (at_ (cy h) i j) as [a|]; cbn; [|reflexivity]. f_equal. qring.
  - rewrite E3. destruct v as [a|]; cbn; [|reflexivity]. f_equal. qring.
  - rewrite E4. destruct w as [a|]; cbn; [|reflexivity]. f_equal. qring.
Qed.
Lemma neg_tidy h : vf_tidy h -> vf_tidy (vf_neg h).
Proof. intros T x y v w m S. apply neg_shows in S. destruct (T _ _ _ _ _ S) as [A B]. destruct v, w; cbn in A, B; split; split; try discriminate; intros; try (apply A || apply B); auto; exfalso; intuition congruence. Qed.
Lemma opp_opp (v : onum) : option_map Qcopp (option_map Qcopp v) = v.
Proof. destruct v as [a|]; cbn; [|reflexivity]. f_equal. qring. Qed.
Lemma sum_neg f h s : shows_sum f (vf_neg h) s -> shows_difference f h s.
Proof.
  intros H x y v w m. rewrite (H x y v w m). split.
  - intros (v1 & w1 & m1 & v2 & w2 & m2 & S1 & S2 & E & P & Q). apply neg_shows in S2. exists v1, w1, m1, (option_map Qcopp v2), (option_map Qcopp w2), m2.
    rewrite !opp_opp. auto.
  - intros (v1 & w1 & m1 & v2 & w2 & m2 & S1 & S2 & E & P & Q). exists v1, w1, m1, (option_map Qcopp v2), (option_map Qcopp w2), m2.
    rewrite neg_shows, !opp_opp. auto.
Qed.
Lemma vf_difference_same f h : vcompatible f h -> good_unit (vuv f) -> vf_wf f -> vf_wf h -> vf_tidy f -> vf_tidy h -> grid_sorted (vg f) ->
  ax (vg f) = ax (vg h) -> ay (vg f) = ay (vg h) ->
  exists s, vf_sub f h = Ok s /\ vg s = vg f /\ vuv s = vuv f /\ vf_wf s /\ vf_tidy s /\ shows_difference f h s.
Proof.
  intros C G Wf Wh Tf Th Sf EX EY. destruct (vf_sum_same f (vf_neg h)) as (s & E & H1 & H2 & H3 & H4 & H5); try assumption; [now apply neg_tidy|].
  exists s. auto 10 using sum_neg.
Qed.
Lemma vf_difference_diff f h : vcompatible f h -> good_unit (vuv f) -> vf_wf f -> vf_wf h -> vf_tidy f -> vf_tidy h -> grid_sorted (vg f) -> grid_sorted (vg h) ->
  (ax (vg f) <> ax (vg h) \/ ay (vg f) <> ay (vg h)) ->
  well_apart (ax (vg f)) (ax (vg h)) -> well_apart (ay (vg f)) (ay (vg h)) ->
  no_common_zero (ax (vg f)) (ax (vg h)) -> no_common_zero (ay (vg f)) (ay (vg h)) ->
  two_common (ax (vg f)) (ax (vg h)) -> two_common (ay (vg f)) (ay (vg h)) ->
  exists s, vf_sub f h = Ok s /\ vuv s = vuv f /\ ux (vg s) = ux (vg f) /\ uy (vg s) = uy (vg f) /\ vf_wf s /\ vf_tidy s /\ grid_sorted (vg s) /\
    (forall x, In x (ax (vg s)) <-> In x (ax (vg f)) /\ In x (ax (vg h))) /\
    (forall y, In y (ay (vg s)) <-> In y (ay (vg f)) /\ In y (ay (vg h))) /\ shows_difference f h s.
Proof.
  intros C G Wf Wh Tf Th Sf Sh D AX AY ZX ZY TX TY.
  destruct (vf_sum_diff f (vf_neg h)) as (s & E & H1 & H2 & H3 & H4 & H5 & H6 & H7 & H8 & H9); try assumption; [now apply neg_tidy|].
  exists s. auto 20 using sum_neg.
Qed.

(** ** equality of vector fields *)
Lemma oeqb_num_eq a b : oeqb_num a b = true <-> exists v, a = Some v /\ b = Some v.
Proof.
  destruct a as [a|], b as [b|]; cbn; split; try discriminate; try (intros (v & H1 & H2); discriminate).
  - intro E. apply qeqb_eq in E. subst. eauto.
  - intros (v & H1 & H2). apply qeqb_eq. congruence.
Qed.
Lemma shows_at f x y v w m i j : grid_sorted (vg f) -> vf_shows f x y v w m -> nth_error (ax (vg f)) i = Some x -> nth_error (ay (vg f)) j = Some y ->
  at_ (cx f) i j = v /\ at_ (cy f) i j = w /\ at_ (vmsk f) i j = m.
Proof.
  intros [SX SY] (i' & j' & E1 & E2 & E3 & E4 & E5) I J.
  assert (i' = i) as ->. { apply (increasing_inj _ _ _ SX); eauto using nth_error_Some_lt. rewrite (nth_error_nths _ _ _ E1), (nth_error_nths _ _ _ I). reflexivity. }
  assert (j' = j) as ->. { apply (increasing_inj _ _ _ SY); eauto using nth_error_Some_lt. rewrite (nth_error_nths _ _ _ E2), (nth_error_nths _ _ _ J). reflexivity. }
  auto.
Qed.
Lemma vf_eqb_lemma f h : grid_sorted (vg f) -> grid_sorted (vg h) -> vf_tidy f -> vf_tidy h -> (vf_eqb f h = true <-> vf_equal f h).
Proof.
  intros Sf Sh Tf Th. unfold vf_eqb. rewrite !andb_true_iff, !Nat.eqb_eq, !list_eqb_eq, !forallb_forall. split.
  - intros (((((((((N & M) & X) & Y) & K) & CX) & CY) & UX) & UY) & UV).
    apply unit_eqb_eq in UX, UY, UV. repeat (split; [assumption|]).
    assert (CELL : forall i j, i < length (ax (vg f)) -> j < length (ay (vg f)) -> at_ (vmsk f) i j = at_ (vmsk h) i j /\
      (at_ (vmsk f) i j = false -> at_ (cx f) i j = at_ (cx h) i j /\ at_ (cy f) i j = at_ (cy h) i j)).
    { intros i j Hi Hj. assert (In (i, j) (cells_of (length (ax (vg f))) (length (ay (vg f))))) as I by (apply in_aidx; auto).
      split; [apply Bool.eqb_prop, (K _ I)|]. intro Q.
      assert (In (i, j) (filter (fun p => negb (at_ (vmsk f) (fst p) (snd p))) (cells_of (length (ax (vg f))) (length (ay (vg f)))))) as J
        by (apply filter_In; split; [exact I|cbn; now rewrite Q]).
      pose proof (CX _ J) as A. pose proof (CY _ J) as B. apply oeqb_num_eq in A, B. cbn [fst snd] in A, B.
      destruct A as (v & -> & ->), B as (w & -> & ->). auto. }
    intros x y v w. split; intros (i & j & E1 & E2 & E3 & E4 & E5).
    + destruct (CELL i j) as [C1 C2]; [eapply nth_error_Some_lt; eauto|eapply nth_error_Some_lt; eauto|]. destruct (C2 E5) as [C3 C4].
      exists i, j. rewrite <- X, <- Y, <- C1, <- C3, <- C4. auto.
    + rewrite <- X in E1. rewrite <- Y in E2.
      destruct (CELL i j) as [C1 C2]; [eapply nth_error_Some_lt; eauto|eapply nth_error_Some_lt; eauto|]. rewrite <- C1 in E5. destruct (C2 E5) as [C3 C4].
      exists i, j. rewrite C3, C4. auto.
  - intros (X & Y & UX & UY & UV & C).
    assert (CELL : forall i j, i < length (ax (vg f)) -> j < length (ay (vg f)) -> at_ (vmsk f) i j = at_ (vmsk h) i j /\
      (at_ (vmsk f) i j = false -> exists v w, at_ (cx f) i j = Some v /\ at_ (cx h) i j = Some v /\ at_ (cy f) i j = Some w /\ at_ (cy h) i j = Some w)).
    { intros i j Hi Hj. pose proof (nths_nth_error _ _ Hi) as I1. pose proof (nths_nth_error _ _ Hj) as J1.
      pose proof I1 as I2. rewrite X in I2. rewrite X in I2 at 1 || idtac. pose proof J1 as J2.
      assert (I3 : nth_error (ax (vg h)) i = Some (nths (ax (vg f)) i)) by (rewrite <- X; exact I1).
      assert (J3 : nth_error (ay (vg h)) j = Some (nths (ay (vg f)) j)) by (rewrite <- Y; exact J1).
      destruct (at_ (vmsk f) i j) eqn:Q.
      - destruct (at_ (vmsk h) i j) eqn:R; [split; [reflexivity|discriminate]|]. exfalso.
        destruct (tidy_some h i j Th) as (a & b & A & B); [congruence|congruence|exact R|].
        assert (vf_shows h (nths (ax (vg f)) i) (nths (ay (vg f)) j) (Some a) (Some b) false) as S by (exists i, j; auto).
        apply C in S. destruct (shows_at f _ _ _ _ _ i j Sf S I1 J1) as (_ & _ & Z). congruence.
      - destruct (tidy_some f i j Tf Hi Hj Q) as (a & b & A & B).
        assert (vf_shows f (nths (ax (vg f)) i) (nths (ay (vg f)) j) (Some a) (Some b) false) as S by (exists i, j; auto).
        apply C in S. destruct (shows_at h _ _ _ _ _ i j Sh S I3 J3) as (Z1 & Z2 & Z3). split; [congruence|]. intros _. exists a, b. auto. }
    rewrite X, Y, UX, UY, UV, !CritProofs6.unit_eqb_refl. repeat (split; [|auto]); auto; try reflexivity.
    + intros [i j] I. apply in_aidx in I. cbn [fst snd]. rewrite <- X, <- Y in I. destruct (CELL i j) as [-> _]; [tauto|tauto|]. apply Bool.eqb_reflx.
    + intros [i j] I. apply filter_In in I. destruct I as [I Q]. apply in_aidx in I. cbn [fst snd] in *. rewrite <- X, <- Y in I.
      destruct (CELL i j) as [_ K]; [tauto|tauto|]. destruct K as (v & w & -> & -> & _); [now apply negb_true_iff|]. cbn. apply qeqb_refl.
    + intros [i j] I. apply filter_In in I. destruct I as [I Q]. apply in_aidx in I. cbn [fst snd] in *. rewrite <- X, <- Y in I.
      destruct (CELL i j) as [_ K]; [tauto|tauto|]. destruct K as (v & w & _ & _ & -> & ->); [now apply negb_true_iff|]. cbn. apply qeqb_refl.
Qed.
Lemma vf_eqb_equivalence :
  (forall f, grid_sorted (vg f) -> vf_tidy f -> vf_eqb f f = true) /\
  (forall f h, grid_sorted (vg f) -> grid_sorted (vg h) -> vf_tidy f -> vf_tidy h -> vf_eqb f h = vf_eqb h f) /\
  (forall f h k, grid_sorted (vg f) -> grid_sorted (vg h) -> grid_sorted (vg k) -> vf_tidy f -> vf_tidy h -> vf_tidy k ->
     vf_eqb f h = true -> vf_eqb h k = true -> vf_eqb f k = true).
Proof.
  split; [|split].
  - intros f S T. apply vf_eqb_lemma; auto. repeat split; auto.
  - intros f h S R T U. apply Bool.eq_iff_eq_true. rewrite !vf_eqb_lemma by assumption. unfold vf_equal. 
    split; intros (A & B & C & D & E & F); repeat (split; [congruence|]); intros; symmetry; apply F.
  - intros f h k S1 S2 S3 T1 T2 T3 E1 E2. apply vf_eqb_lemma; auto. apply vf_eqb_lemma in E1, E2; auto.
    destruct E1 as (A & B & C & D & E & F), E2 as (A' & B' & C' & D' & E' & F'). repeat (split; [congruence|]). intros. rewrite F. apply F'.
Qed.
