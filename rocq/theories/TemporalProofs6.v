(** * TemporalProofs6: average of a series of vector fields *)
From Verif Require Import Num Res ListLib SortLib Arr FieldModel ScalarFieldModel VectorFieldModel ProfileModel FieldSpec SeqSpec
  FieldProofs RotateProofs FieldProofs2 ScalarProofs FieldProofs3 PointsModel PointsSpec PointsProofs5 PointsProofs6 ProfileProofs3 TemporalModel TemporalSpec
  TemporalProofs TemporalProofs2 TemporalProofs3 TemporalProofs5.
From Coq Require Import Lia.

Definition zof (v : onum) : num := match v with Some x => x | None => 0%num end.
Lemma vclean_cell f i j : vf_clean f -> i < length (ax (vg f)) -> j < length (ay (vg f)) ->
  (at_ (cx f) i j = None <-> at_ (vmsk f) i j = true) /\ (at_ (cy f) i j = None <-> at_ (vmsk f) i j = true).
Proof.
  intros C Hi Hj. apply (C (nths (ax (vg f)) i) (nths (ay (vg f)) j)). exists i, j.
  split; [now apply nths_nth_error|]. split; [now apply nths_nth_error|]. repeat split; reflexivity.
Qed.
Lemma fill_comp f c : grid_ok2 (vg f) -> has_shape c (length (ax (vg f))) (length (ay (vg f))) ->
  (forall i j, i < length (ax (vg f)) -> j < length (ay (vg f)) -> (at_ c i j = None <-> at_ (vmsk f) i j = true)) ->
  exists s a, comp_sf f c = Ok s /\ sf_fill_value_new s 0%num = Ok a /\ has_shape (values a) (length (ax (vg f))) (length (ay (vg f))) /\
    forall i j, i < length (ax (vg f)) -> j < length (ay (vg f)) -> at_ (values a) i j = Some (zof (at_ c i j)).
Proof.
  intros ((IX & IY) & LX & LY) [S0 S1] C. unfold comp_sf. rewrite sf_import_plain by assumption.
  eexists; eexists. split; [reflexivity|]. unfold sf_fill_value_new. cbn [sg ax ay raw msk].
  rewrite sf_import_plain by (cbn [d0 d1]; assumption). split; [reflexivity|]. split; [split; cbn; assumption|].
  intros i j Hi Hj. specialize (C i j Hi Hj). cbn. destruct (at_ c i j) as [v|] eqn:E; destruct (at_ (vmsk f) i j); cbn; try reflexivity.
  destruct C as [_ C]. discriminate (C eq_refl).
Qed.
Lemma vf_fill0_lemma f : grid_ok2 (vg f) -> vf_wf f -> vf_clean f ->
  exists a, vf_fill_value f 0%num 0%num = Ok a /\ vg a = vg f /\ vuv a = vuv f /\ vf_wf a /\
    forall i j, i < length (ax (vg f)) -> j < length (ay (vg f)) ->
      at_ (cx a) i j = Some (zof (at_ (cx f) i j)) /\ at_ (cy a) i j = Some (zof (at_ (cy f) i j)) /\ at_ (vmsk a) i j = false.
Proof.
  intros GO (SX & SY & SM) C.
  destruct (fill_comp f (cx f) GO SX) as (s1 & a1 & E1 & E2 & H1 & V1); [intros; now apply vclean_cell|].
  destruct (fill_comp f (cy f) GO SY) as (s2 & a2 & E3 & E4 & H2 & V2); [intros; now apply vclean_cell|].
  unfold vf_fill_value. rewrite E1, E3. cbn [bind]. rewrite E2, E4. cbn [bind].
  unfold vf_set_comp_x. rewrite shape_is_true by apply H1. cbn [bind]. unfold vf_set_comp_y. cbn [vg]. rewrite shape_is_true by apply H2. cbn [bind].
  eexists. split; [reflexivity|]. cbn [vg vuv]. split; [reflexivity|]. split; [reflexivity|]. split; [split; [exact H1|split; [exact H2|split; reflexivity]]|].
  intros i j Hi Hj. cbn [cx cy vmsk]. rewrite V1, V2 by assumption. auto.
Qed.
Lemma vf_add_cells f h : vg h = vg f -> dim (vuv f) = dim (vuv h) -> good_unit (vuv f) -> vf_wf f ->
  exists s k, vf_plus f h = Ok s /\ (k * sc (vuv f) = sc (vuv h))%num /\ vg s = vg f /\ vuv s = vuv f /\ vf_wf s /\
    forall i j, at_ (vmsk s) i j = orb (at_ (vmsk f) i j) (at_ (vmsk h) i j) /\
      at_ (cx s) i j = (if at_ (vmsk s) i j then None else oadd (at_ (cx f) i j) (oscale k (at_ (cx h) i j))) /\
      at_ (cy s) i j = (if at_ (vmsk s) i j then None else oadd (at_ (cy f) i j) (oscale k (at_ (cy h) i j))).
Proof.
  intros E D G (SX & SY & SM). unfold vf_plus. rewrite E, !list_eqb_refl. cbn [andb]. unfold vf_add_same.
  rewrite D, E, !dim_eqb_refl. cbn [andb negb guard].
  destruct (conv_ok (vuv h) (vuv f) G (eq_sym D)) as (k & Ek & Hk). rewrite Ek. cbn [bind].
  eexists; exists k. split; [reflexivity|]. split; [exact Hk|]. split; [reflexivity|]. split; [reflexivity|].
  split; [split; [exact SX|split; [exact SY|exact SM]]|]. intros i j. repeat split; reflexivity.
Qed.
Lemma vsum_filled_lemma l : forall g acc (A B : nat -> nat -> num), grid_ok2 g ->
  vg acc = g -> good_unit (vuv acc) -> vf_wf acc ->
  (forall i j, i < length (ax g) -> j < length (ay g) -> at_ (cx acc) i j = Some (A i j) /\ at_ (cy acc) i j = Some (B i j) /\ at_ (vmsk acc) i j = false) ->
  (forall f, In f l -> vg f = g /\ vf_wf f /\ vf_clean f /\ dim (vuv acc) = dim (vuv f)) ->
  exists s, sum_filled vf_ops acc l = Ok s /\ vg s = g /\ vuv s = vuv acc /\ vf_wf s /\
    forall i j, i < length (ax g) -> j < length (ay g) -> exists v w, at_ (cx s) i j = Some v /\ at_ (cy s) i j = Some w /\ at_ (vmsk s) i j = false /\
      (v * sc (vuv acc) = A i j * sc (vuv acc) + total (map (fun f => zof (at_ (cx f) i j) * sc (vuv f)) l))%num /\
      (w * sc (vuv acc) = B i j * sc (vuv acc) + total (map (fun f => zof (at_ (cy f) i j) * sc (vuv f)) l))%num.
Proof.
  induction l as [|f l IH]; intros g acc A B GO Eg GU W HA HL.
  - exists acc. cbn [sum_filled]. repeat (split; [now auto|]). intros i j Hi Hj. destruct (HA i j Hi Hj) as (H1 & H2 & H3). exists (A i j), (B i j).
    repeat split; auto; cbn [map]; rewrite total_nil; qring.
  - destruct (HL f) as (Ef & Wf & Cf & Df); [now left|]. cbn [sum_filled o_fill0 vf_ops].
    destruct (vf_fill0_lemma f) as (a & Ea & Ga & Ua & Wa & Va); [now rewrite Ef|assumption|assumption|]. rewrite Ea. cbn [bind o_add].
    destruct (vf_add_cells acc a) as (s & k & Es & Hk & Gs & Us & Ws & Vs); try assumption; [congruence|congruence|].
    cbn [o_add vf_ops]. rewrite Es. cbn [bind].
    destruct (IH g s (fun i j => (A i j + zof (at_ (cx f) i j) * k)%num) (fun i j => (B i j + zof (at_ (cy f) i j) * k)%num)) as (r & Er & Gr & Ur & Wr & Vr).
    + exact GO.
    + congruence.
    + congruence.
    + exact Ws.
    + intros i j Hi Hj. destruct (Vs i j) as (V0 & V1 & V2). destruct (HA i j Hi Hj) as (A1 & A2 & A3). rewrite <- Ef in Hi, Hj. destruct (Va i j Hi Hj) as (B1 & B2 & B3).
      rewrite V1, V2, V0, A1, A2, A3, B1, B2, B3. cbn. auto.
    + intros h I. rewrite Us. apply HL. now right.
    + exists r. rewrite Us in Ur. repeat (split; [assumption|]). intros i j Hi Hj. destruct (Vr i j Hi Hj) as (v & w & V1 & V2 & V3 & V4 & V5).
      exists v, w. split; [exact V1|]. split; [exact V2|]. split; [exact V3|]. rewrite Us in V4, V5. rewrite V4, V5. cbn [map]. rewrite !total_cons.
      rewrite Ua in Hk. rewrite <- Hk. split; qring.
Qed.
Lemma vavailables_count (comp : vfield -> arr onum) l i j :
  (forall f, In f l -> (at_ (comp f) i j = None <-> at_ (vmsk f) i j = true)) ->
  length (vavailables comp l i j) = count_valid vf_ops l i j /\ total (vavailables comp l i j) = total (map (fun f => zof (at_ (comp f) i j) * sc (vuv f))%num l).
Proof.
  intros H. induction l as [|f l IH]; [split; reflexivity|].
  destruct IH as [IH1 IH2]; [intros; apply H; now right|]. specialize (H f (or_introl eq_refl)).
  change (vavailables comp (f :: l) i j) with (vavail comp f i j ++ vavailables comp l i j). rewrite app_length, total_app, IH1, IH2. cbn [map]. rewrite total_cons.
  unfold count_valid, vavail, zof. cbn [filter o_mask vf_ops]. destruct (at_ (vmsk f) i j).
  - destruct H as [_ H]. rewrite (H eq_refl). cbn [negb length]. rewrite total_nil. split; [reflexivity|qring].
  - destruct (at_ (comp f) i j); [|destruct H as [H _]; discriminate (H eq_refl)]. cbn [negb length]. rewrite total_cons, total_nil. split; [reflexivity|qring].
Qed.
Lemma tf_mean_vf t nmb : vf_series_ok t -> tff t <> [] -> (0 <= nmb)%Z ->
  exists m, tf_mean vf_ops t nmb = Ok m /\ vg m = tfg t /\ vf_wf m /\ (exists f r, tff t = f :: r /\ vuv m = vuv f) /\
    forall i j, i < length (ax (tfg t)) -> j < length (ay (tfg t)) ->
      (at_ (vmsk m) i j = true <-> (Z.of_nat (length (vavailables cx (tff t) i j)) <= nmb)%Z) /\
      (at_ (vmsk m) i j = true -> at_ (cx m) i j = None /\ at_ (cy m) i j = None) /\
      (at_ (vmsk m) i j = false -> average_of (vavailables cx (tff t) i j) (vuv m) (at_ (cx m) i j) /\
                                   average_of (vavailables cy (tff t) i j) (vuv m) (at_ (cy m) i j)).
Proof.
  intros (GO & OG & FO & DM) NE NM. unfold tf_mean. destruct (tff t) as [|f r] eqn:Ef; [congruence|]. clear NE.
  assert (EG : forall h, In h (f :: r) -> vg h = tfg t) by (intros h I; apply OG; rewrite Ef; exact I).
  destruct (FO f) as (Wf & Cf & Uf); [now left|].
  assert (Gf : vg f = tfg t) by (apply EG; now left).
  destruct (vf_fill0_lemma f) as (a & Ea & Ga & Ua & Wa & Va); [now rewrite Gf|assumption|assumption|]. cbn [o_fill0 vf_ops]. rewrite Ea. cbn [bind].
  destruct (vsum_filled_lemma r (tfg t) a (fun i j => zof (at_ (cx f) i j)) (fun i j => zof (at_ (cy f) i j))) as (s & Es & Gs & Us & Ws & Vs).
  - exact GO.
  - congruence.
  - congruence.
  - exact Wa.
  - rewrite <- Gf. exact Va.
  - intros h I. split; [apply EG; now right|]. destruct (FO h) as (W & C & U); [now right|]. split; [exact W|]. split; [exact C|]. rewrite Ua. apply DM; [now left|now right].
  - rewrite Es. cbn [bind].
    assert (existsb (fun h => negb (Nat.eqb (d0 (o_mask vf_ops h)) (length (ax (tfg t))) && Nat.eqb (d1 (o_mask vf_ops h)) (length (ay (tfg t))))) (f :: r) = false) as ->.
    { apply not_true_iff_false. intro K. apply existsb_exists in K. destruct K as (h & I & K). destruct (FO h I) as ((_ & _ & M0 & M1) & _).
      rewrite <- (EG h I) in K. cbn [o_mask vf_ops] in K. rewrite M0, M1, !Nat.eqb_refl in K. discriminate. }
    destruct Ws as ([X0 X1] & [Y0 Y1] & [M0 M1]). rewrite Gs in *.
    assert (Cell : forall i j, i < length (ax (tfg t)) -> j < length (ay (tfg t)) ->
      exists v w, at_ (cx s) i j = Some v /\ at_ (cy s) i j = Some w /\ at_ (vmsk s) i j = false /\
        (v * sc (vuv s) = total (vavailables cx (f :: r) i j))%num /\ (w * sc (vuv s) = total (vavailables cy (f :: r) i j))%num /\
        length (vavailables cx (f :: r) i j) = count_valid vf_ops (f :: r) i j /\ length (vavailables cy (f :: r) i j) = count_valid vf_ops (f :: r) i j).
    { intros i j Hi Hj. destruct (Vs i j Hi Hj) as (v & w & V1 & V2 & V3 & V4 & V5). exists v, w. split; [exact V1|]. split; [exact V2|]. split; [exact V3|].
      assert (CC : forall h, In h (f :: r) -> (at_ (cx h) i j = None <-> at_ (vmsk h) i j = true) /\ (at_ (cy h) i j = None <-> at_ (vmsk h) i j = true)).
      { intros h I. apply vclean_cell; [apply (FO h I)|now rewrite (EG h I)|now rewrite (EG h I)]. }
      destruct (vavailables_count cx (f :: r) i j) as [L1 L2]; [intros h I; apply (CC h I)|].
      destruct (vavailables_count cy (f :: r) i j) as [L3 L4]; [intros h I; apply (CC h I)|].
      rewrite L2, L4. cbn [map]. rewrite !total_cons, Us, V4, V5, Ua. auto. }
    cbn [guard]. cbn [o_setmask vf_ops]. unfold vf_set_mask at 1. rewrite shape_is_true by (cbn; now rewrite Gs). cbn [negb guard].
    assert (existsb (fun p => (at_ (vmsk s) (fst p) (snd p) && negb (Z.of_nat (count_valid vf_ops (f :: r) (fst p) (snd p)) <=? nmb)%Z)%bool) (aidx (d0 (vmsk s)) (d1 (vmsk s))) = false) as NR.
    { apply not_true_iff_false. intro K. apply existsb_exists in K. destruct K as ([i j] & I & K). apply in_aidx in I. rewrite M0, M1 in I. cbn [fst snd] in K.
      destruct (Cell i j) as (? & ? & _ & _ & H & _); try tauto. rewrite H in K. discriminate. }
    cbn [at_]. rewrite NR. cbn [guard bind]. cbn [o_diva vf_ops]. unfold vf_div_arr. cbn [vg cx cy vmsk vuv]. rewrite shape_is_true by (cbn; now rewrite Gs). cbn [negb guard].
    unfold vf_set_comp_x. cbn [vg cx cy vmsk vuv]. rewrite shape_is_true by (cbn; rewrite Gs; assumption). cbn [bind].
    unfold vf_set_comp_y. cbn [vg cx cy vmsk vuv]. rewrite shape_is_true by (cbn; rewrite Gs; assumption). cbn [bind].
    unfold vf_set_mask. cbn [vg cx cy vmsk vuv]. rewrite shape_is_true by (cbn; now rewrite Gs). cbn [negb guard].
    match goal with |- context [existsb ?p ?l] => assert (existsb p l = false) as -> end.
    { apply not_true_iff_false. intro K. apply existsb_exists in K. destruct K as ([i j] & I & K). cbn [fst snd amap2 at_] in K.
      destruct (_ <=? _)%Z in K; cbn in K; discriminate. }
    cbn [guard]. eexists. split; [reflexivity|]. cbn [vg cx cy vmsk vuv]. split; [exact Gs|].
    split; [unfold vf_wf; cbn; rewrite Gs; repeat split; assumption|]. split; [exists f, r; split; [reflexivity|congruence]|].
    intros i j Hi Hj. destruct (Cell i j Hi Hj) as (v & w & V1 & V2 & V3 & V4 & V5 & V6 & V7). cbn [at_ amap2 nanify].
    assert (NZ : (nmb < Z.of_nat (count_valid vf_ops (f :: r) i j))%Z -> qn (count_valid vf_ops (f :: r) i j) <> 0%num).
    { intro K. apply qgt_neq. unfold qn. apply (qz_lt 0). lia. }
    rewrite V6. destruct (Z.leb_spec (Z.of_nat (count_valid vf_ops (f :: r) i j)) nmb) as [K|K]; cbn [orb].
    + split; [tauto|]. split; [tauto|discriminate].
    + specialize (NZ K). destruct (qeqb_spec (qn (count_valid vf_ops (f :: r) i j)) 0%num) as [Z0|Z0]; [contradiction|]. cbn [orb].
      split; [split; [discriminate|lia]|]. split; [discriminate|]. intros _.
      rewrite V1, V2. cbn [odiv]. destruct (qeqb_spec (qn (count_valid vf_ops (f :: r) i j)) 0%num); [contradiction|]. split; eexists; (split; [reflexivity|]).
      * rewrite V6, <- V4. qfield. exact NZ.
      * rewrite V7, <- V5. qfield. exact NZ.
Qed.
